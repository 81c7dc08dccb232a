(** * V1SubFacts4: interpret, suffixed. *)
From Verif Require Import Base BaseFacts Parsers FieldSpec FieldFacts DateFacts Engine EngineFacts2 Pdag Samp LineSpec BuiltSpec LoadSpec AnnotSpec AnnotFacts SynFacts EncFacts V1 V1Spec V1Facts V1Add V1Match V1LoadSpec V1Load V1Total V1FieldSpec V1Field V1Top V1SubSpec V1SubFacts V1SubFacts2.
From Coq Require Import ZifyBool ZifyNat ZifyN.

(** ** Numbers *)
Lemma clamped_iff z v : clamped z v <-> v = clamp64 z.
Proof.
  unfold clamped, clamp64. destruct (Z.ltb_spec z (- 2 ^ 63)) as [H|H]; [lia|]. destruct (Z.leb_spec (2 ^ 63) z) as [H2|H2]; lia.
Qed.
Lemma digit10 c : digit_of 10 c = if isdigit c then Some (digit_value c) else None.
Proof. destruct c as [[] [] [] [] [] [] [] []]; reflexivity. Qed.
Lemma digit16 c : digit_of 16 c = if isxdigit c then Some (hexdigit_value c) else None.
Proof. destruct c as [[] [] [] [] [] [] [] []]; reflexivity. Qed.
Lemma digits10 ds r : all_digits ds -> ends digit r -> forall a, strtol_digits 10 (ds ++ r) a = fold_left (fun v c => 10 * v + digit_value c)%Z ds a.
Proof.
  intros H HR. induction H as [|c ds Hc H IH]; intros a; cbn [app strtol_digits fold_left].
  - destruct r as [|c r]; [reflexivity|]. cbn [strtol_digits]. rewrite digit10. destruct (isdigit c) eqn:E; [|reflexivity]. apply isdigit_iff in E. exfalso. exact (HR _ _ eq_refl E).
  - rewrite digit10, (proj2 (isdigit_iff c) Hc). rewrite IH. f_equal. lia.
Qed.
Lemma digits16 ds r : Forall hexdigit ds -> ends hexdigit r -> forall a, strtol_digits 16 (ds ++ r) a = fold_left (fun v c => 16 * v + hexdigit_value c)%Z ds a.
Proof.
  intros H HR. induction H as [|c ds Hc H IH]; intros a; cbn [app strtol_digits fold_left].
  - destruct r as [|c r]; [reflexivity|]. cbn [strtol_digits]. rewrite digit16. destruct (isxdigit c) eqn:E; [|reflexivity]. apply isxdigit_iff in E. exfalso. exact (HR _ _ eq_refl E).
  - rewrite digit16, (proj2 (isxdigit_iff c) Hc). rewrite IH. f_equal. lia.
Qed.

Definition neg_of (s : text) : bool * text :=
  match s with
  | c :: s' => if ceq c "-" then (true, s') else if ceq c "+" then (false, s') else (false, s)
  | [] => (false, s)
  end.
Definition no_0x (base : Z) (s : text) : text :=
  match s with
  | z :: x :: s' => if (Z.eqb base 16 && ceq z "0" && (ceq x "x" || ceq x "X"))%bool then s' else s
  | _ => s
  end.
Lemma strtol_eq base s : strtol base s = let '(neg, s) := neg_of (skipn (scan isspace s) s) in
  clamp64 (if neg then - strtol_digits base (no_0x base s) 0 else strtol_digits base (no_0x base s) 0)%Z.
Proof. reflexivity. Qed.

Lemma sign_skip b sg r : Forall space b -> sign sg -> (sg = [] -> ends blank_or_sign r) ->
  neg_of (skipn (scan isspace (b ++ sg ++ r)) (b ++ sg ++ r)) = (text_eqb sg (L "-"), r).
Proof.
  intros Hb Hs Hr. rewrite (scan_app isspace b).
  - rewrite skipn_lapp. destruct Hs as [->|[->| ->]]; try reflexivity. specialize (Hr eq_refl). cbn [app]. destruct r as [|c r]; [reflexivity|].
    specialize (Hr _ _ eq_refl). unfold neg_of. destruct (ceq c "-") eqn:E1; [apply ceq_true in E1; subst; exfalso; apply Hr; unfold blank_or_sign; auto|].
    destruct (ceq c "+") eqn:E2; [apply ceq_true in E2; subst; exfalso; apply Hr; unfold blank_or_sign; auto|]. reflexivity.
  - eapply Forall_impl; [|exact Hb]. intros c. apply isspace_iff.
  - intros c w E. destruct (isspace c) eqn:EC; [|reflexivity]. apply isspace_iff in EC. exfalso. destruct Hs as [->|[->| ->]].
    + cbn [app] in E. apply (Hr eq_refl _ _ E). left. exact EC.
    + injection E as <- _. revert EC. cbn. intuition discriminate.
    + injection E as <- _. revert EC. cbn. intuition discriminate.
Qed.
Lemma digit_no_sign ds r : all_digits ds -> ds <> [] -> ends blank_or_sign (ds ++ r).
Proof.
  intros H Hn. destruct H as [|c ds Hc H]; [congruence|]. intros x w [= <- _] [X|[X|X]].
  - apply isdigit_iff in Hc. apply isspace_iff in X. destruct c as [[] [] [] [] [] [] [] []]; discriminate.
  - subst. revert Hc. cbn. intuition discriminate.
  - subst. revert Hc. cbn. intuition discriminate.
Qed.
Lemma hexdigit_no_sign ds r : Forall hexdigit ds -> ds <> [] -> ends blank_or_sign (ds ++ r).
Proof.
  intros H Hn. destruct H as [|c ds Hc H]; [congruence|]. intros x w [= <- _] [X|[X|X]].
  - apply isxdigit_iff in Hc. apply isspace_iff in X. destruct c as [[] [] [] [] [] [] [] []]; discriminate.
  - subst. revert Hc. cbn. intuition discriminate.
  - subst. revert Hc. cbn. intuition discriminate.
Qed.
Lemma decimal_strtol s z : decimal_text s z -> strtol 10 s = clamp64 z.
Proof.
  intros (b & sg & ds & r & -> & Hb & Hs & Hd & Hr & Hn & ->). rewrite strtol_eq, sign_skip; auto.
  - assert (E : no_0x 10 (ds ++ r) = ds ++ r) by (destruct (ds ++ r) as [|x [|y w]]; reflexivity). rewrite E, digits10 by auto. unfold signed, decimal. destruct (text_eqb sg (L "-")); reflexivity.
  - intros E. destruct ds as [|c ds]; [apply Hn; auto|]. apply digit_no_sign; [exact Hd|discriminate].
Qed.
Lemma hex_strtol s z : hex_text s z -> strtol 16 s = clamp64 z.
Proof.
  intros (b & sg & p & ds & r & -> & Hb & Hs & Hp & Hd & Hr & Hn & Hp1 & Hp2 & ->). rewrite strtol_eq, sign_skip; auto.
  - assert (E : strtol_digits 16 (no_0x 16 (p ++ ds ++ r)) 0 = hexadecimal ds).
    { unfold hexadecimal. destruct Hp as [<-|[<-|[<-|[]]]].
      - cbn [app]. specialize (Hp2 eq_refl). destruct (ds ++ r) as [|x [|y w]] eqn:ED; try (cbn [no_0x]; rewrite <- ED; apply digits16; auto).
        unfold no_0x. destruct (Z.eqb 16 16 && ceq x "0" && (ceq y "x" || ceq y "X"))%bool eqn:EX; [|rewrite <- ED; apply digits16; auto].
        apply andb_prop in EX. destruct EX as (EX & E2). apply andb_prop in EX. destruct EX as (_ & E1). apply ceq_true in E1. subst x.
        assert (HY : In y (L "xX")) by (apply orb_prop in E2; destruct E2 as [E2|E2]; apply ceq_true in E2; subst; cbn; auto).
        destruct ds as [|c ds]; [cbn [app] in ED; exfalso; apply (Hr _ _ ED); cbn; auto|].
        destruct ds as [|d ds]; cbn [app] in ED; injection ED as ->.
        + subst r. cbn [fold_left]. change (16 * 0 + hexdigit_value "0")%Z with 0%Z. destruct w as [|a w]; [reflexivity|]. cbn [strtol_digits]. rewrite digit16.
          destruct (isxdigit a) eqn:EA; [|reflexivity]. apply isxdigit_iff in EA. exfalso. exact (Hp2 eq_refl _ _ _ HY eq_refl EA).
        + exfalso. subst d. apply Forall_cons_iff in Hd. destruct Hd as (_ & Hd). apply Forall_cons_iff in Hd. destruct Hd as (Hd & _).
          destruct HY as [<-|[<-|[]]]; revert Hd; cbn; intuition discriminate.
      - change (L "0x" ++ ds ++ r) with ("0"%char :: "x"%char :: ds ++ r). cbn [no_0x]. change (Z.eqb 16 16 && ceq "0" "0" && (ceq "x" "x" || ceq "x" "X"))%bool with true. cbn iota. apply digits16; auto.
      - change (L "0X" ++ ds ++ r) with ("0"%char :: "X"%char :: ds ++ r). cbn [no_0x]. change (Z.eqb 16 16 && ceq "0" "0" && (ceq "X" "x" || ceq "X" "X"))%bool with true. cbn iota. apply digits16; auto. }
    rewrite E. unfold signed. destruct (text_eqb sg (L "-")); reflexivity.
  - intros E. destruct Hp as [<-|[<-|[<-|[]]]].
    + cbn [app]. destruct ds as [|c ds]; [apply Hn; auto|]. apply hexdigit_no_sign; [exact Hd|discriminate].
    + intros x w [= <- _] [X|[X|X]]; [revert X; cbn; intuition discriminate|discriminate|discriminate].
    + intros x w [= <- _] [X|[X|X]]; [revert X; cbn; intuition discriminate|discriminate|discriminate].
Qed.

Lemma split_run (P : ascii -> bool) s : exists a r, s = a ++ r /\ Forall (fun c => P c = true) a /\ forall c w, r = c :: w -> P c = false.
Proof.
  induction s as [|c s (a & r & -> & Ha & Hr)]; [exists [], []; repeat split; auto; discriminate|]. destruct (P c) eqn:E.
  - exists (c :: a), r. repeat split; auto.
  - exists [], (c :: a ++ r). repeat split; auto. intros x w [= <- _]. exact E.
Qed.
Lemma sign_split s : exists sg r, s = sg ++ r /\ sign sg /\ (sg = [] -> forall c w, r = c :: w -> c <> "+"%char /\ c <> "-"%char).
Proof.
  unfold sign. destruct s as [|c s]; [exists [], []; repeat split; auto; discriminate|].
  destruct (ascii_dec c "+") as [->|H1]; [exists (L "+"), s; repeat split; auto; discriminate|].
  destruct (ascii_dec c "-") as [->|H2]; [exists (L "-"), s; repeat split; auto; discriminate|].
  exists [], (c :: s). split; [reflexivity|]. split; [auto|]. intros _ x w [= <- _]. auto.
Qed.
Lemma decimal_total s : exists z, decimal_text s z.
Proof.
  destruct (split_run isspace s) as (b & r0 & -> & Hb & H0). destruct (sign_split r0) as (sg & r1 & -> & Hs & H1). destruct (split_run isdigit r1) as (ds & r & -> & Hd & H2).
  exists (signed sg (decimal ds)). exists b, sg, ds, r. split; [reflexivity|]. split; [eapply Forall_impl; [|exact Hb]; intros c; apply isspace_iff|]. split; [exact Hs|].
  split; [eapply Forall_impl; [|exact Hd]; intros c; apply isdigit_iff|]. split; [intros c w E X; apply isdigit_iff in X; rewrite (H2 _ _ E) in X; discriminate|].
  split; [|reflexivity]. intros -> -> c w -> [X|X].
  - apply isspace_iff in X. rewrite (H0 _ _ eq_refl) in X. discriminate.
  - destruct (H1 eq_refl _ _ eq_refl). tauto.
Qed.
Lemma hex_total s : exists z, hex_text s z.
Proof.
  destruct (split_run isspace s) as (b & r0 & -> & Hb & H0). destruct (sign_split r0) as (sg & r1 & -> & Hs & H1).
  assert (G : exists p ds r, r1 = p ++ ds ++ r /\ In p [[]; L "0x"; L "0X"] /\ Forall hexdigit ds /\ ends hexdigit r /\ (p <> [] -> ds <> []) /\ (p = [] -> ds = L "0" -> forall x c w, In x (L "xX") -> r = x :: c :: w -> ~ hexdigit c)).
  { assert (D : (exists x c w, In x (L "xX") /\ r1 = "0"%char :: x :: c :: w /\ hexdigit c) \/ ~ (exists x c w, In x (L "xX") /\ r1 = "0"%char :: x :: c :: w /\ hexdigit c)).
    { destruct r1 as [|a [|x [|c w]]]; try (right; intros (? & ? & ? & _ & X & _); discriminate).
      destruct (ceq a "0") eqn:Ea; [apply ceq_true in Ea; subst a|right; intros (? & ? & ? & _ & [= -> _ _ _] & _); discriminate].
      destruct (ceq x "x" || ceq x "X")%bool eqn:Ex.
      - destruct (isxdigit c) eqn:Ec; [left; exists x, c, w; repeat split; [apply orb_prop in Ex; destruct Ex as [E|E]; apply ceq_true in E; subst; cbn; auto|apply isxdigit_iff; exact Ec]|].
        right. intros (x' & c' & w' & _ & [= _ -> _] & X). apply isxdigit_iff in X. congruence.
      - right. intros (x' & c' & w' & X & [= -> _ _] & _). destruct X as [<-|[<-|[]]]; discriminate. }
    destruct D as [(x & c & w & Hx & -> & Hc)|D].
    - destruct (split_run isxdigit (c :: w)) as (ds & r & E & Hd & H2). exists ["0"%char; x], ds, r. split; [rewrite <- E; reflexivity|]. split; [destruct Hx as [<-|[<-|[]]]; cbn; auto|].
      split; [eapply Forall_impl; [|exact Hd]; intros y; apply isxdigit_iff|]. split; [intros y v Ev X; apply isxdigit_iff in X; rewrite (H2 _ _ Ev) in X; discriminate|].
      split; [|discriminate]. intros _ ->. cbn [app] in E. symmetry in E. specialize (H2 _ _ E). apply isxdigit_iff in Hc. congruence.
    - destruct (split_run isxdigit r1) as (ds & r & -> & Hd & H2). exists [], ds, r. split; [reflexivity|]. split; [cbn; auto|].
      split; [eapply Forall_impl; [|exact Hd]; intros y; apply isxdigit_iff|]. split; [intros y v Ev X; apply isxdigit_iff in X; rewrite (H2 _ _ Ev) in X; discriminate|].
      split; [congruence|]. intros _ -> x c w Hx -> Hc. apply D. exists x, c, w. auto. }
  destruct G as (p & ds & r & -> & Hp & Hd & Hr & Hp1 & Hp2). exists (signed sg (hexadecimal ds)), b, sg, p, ds, r. split; [reflexivity|].
  split; [eapply Forall_impl; [|exact Hb]; intros c; apply isspace_iff|]. split; [exact Hs|]. split; [exact Hp|]. split; [exact Hd|]. split; [exact Hr|].
  split; [|split; [exact Hp1|split; [exact Hp2|reflexivity]]]. intros -> -> -> c w -> [X|X].
  - apply isspace_iff in X. rewrite (H0 _ _ eq_refl) in X. discriminate.
  - destruct (H1 eq_refl _ _ eq_refl). tauto.
Qed.

Definition ity (ty : string) : option itype :=
  let t := L ty in
  if (text_eqb t (L "int") || text_eqb t (L "base10int"))%bool then Some IDec
  else if text_eqb t (L "base16int") then Some IHex
  else if text_eqb t (L "float") then Some IFloat
  else if text_eqb t (L "bool") then Some IBool else None.

Lemma text_eqb_neq a b : a <> b -> text_eqb a b = false.
Proof. intros H. destruct (text_eqb a b) eqn:E; [|reflexivity]. apply text_eqb_true in E. contradiction. Qed.

Section S.
Variable e : env.
Hypothesis Hue : unescape e [] = [].

Lemma reinterpret_ok ty it s v : ity ty = Some it -> clean s -> interpreted ty s v -> reinterpret e it (JStr s) = Ok (Some v).
Proof.
  intros HT HN H. destruct H as [ty s z v HI HD HC|s z v HD HC|s|s HF|s HF1 HF2].
  - apply clamped_iff in HC. subst v. rewrite <- (decimal_strtol _ _ HD).
    assert (it = IDec) as -> by (destruct HI as [<-|[<-|[]]]; cbn in HT; congruence). cbn [reinterpret]. rewrite AnnotFacts.cstr_id by exact HN. reflexivity.
  - apply clamped_iff in HC. subst v. rewrite <- (hex_strtol _ _ HD). assert (it = IHex) as -> by (cbn in HT; congruence). cbn [reinterpret]. rewrite AnnotFacts.cstr_id by exact HN. reflexivity.
  - assert (it = IFloat) as -> by (cbn in HT; congruence). cbn [reinterpret]. rewrite AnnotFacts.cstr_id by exact HN. reflexivity.
  - assert (it = IBool) as -> by (cbn in HT; congruence). cbn [reinterpret]. rewrite AnnotFacts.cstr_id by exact HN. unfold casecmp.
    change (map tolower (L "false")) with (L "false"). change (map tolower (L "no")) with (L "no").
    destruct HF as [-> | ->]; reflexivity.
  - assert (it = IBool) as -> by (cbn in HT; congruence). cbn [reinterpret]. rewrite AnnotFacts.cstr_id by exact HN. unfold casecmp.
    change (map tolower (L "false")) with (L "false"). change (map tolower (L "no")) with (L "no").
    rewrite (text_eqb_neq _ _ HF1), (text_eqb_neq _ _ HF2). reflexivity.
Qed.
Lemma interpreted_total ty s it : ity ty = Some it -> In ty ["int"; "base10int"; "base16int"; "float"; "bool"]%string -> exists v, interpreted ty s v.
Proof.
  intros _ HI. destruct (decimal_total s) as (z & Hz). destruct (hex_total s) as (h & Hh).
  destruct HI as [<-|[<-|[<-|[<-|[<-|[]]]]]].
  - exists (JInt (clamp64 z)). eapply in_int; [cbn; auto|exact Hz|apply clamped_iff; reflexivity].
  - exists (JInt (clamp64 z)). eapply in_int; [cbn; auto|exact Hz|apply clamped_iff; reflexivity].
  - exists (JInt (clamp64 h)). eapply in_hex; [exact Hh|apply clamped_iff; reflexivity].
  - eexists. apply in_float.
  - destruct (text_eqb (map tolower s) (L "false")) eqn:E1; [apply text_eqb_true in E1; eexists; apply in_false; auto|].
    destruct (text_eqb (map tolower s) (L "no")) eqn:E2; [apply text_eqb_true in E2; eexists; apply in_false; auto|].
    eexists. apply in_true; intros X; rewrite X in *; discriminate.
Qed.

(** ** A content type *)
Lemma norm_item nf fd t v u : vf_name fd = L "default" -> vf_kind fd <> KIptables -> clean t -> item e nf fd t v u ->
  exists js, dnorm e nf (one_field fd) t [] = Ok js /\ obj_get js (L "unparsed-data") = None /\ get_or_null js (L "default") = v /\
    get_or_null js (L "tail") = (if is_nil u then JNull else JStr u) /\ List.length u <= List.length t /\ ~ In NUL u.
Proof.
  intros HF HK HN (Ht & n & HR & ->). unfold dnorm. rewrite norm_content by auto. rewrite HR. eexists. split; [reflexivity|]. unfold content_js, get_or_null.
  split; [|split; [|split; [|split; [rewrite skipn_length; lia|apply skipn_clean; exact HN]]]].
  - destruct (Nat.ltb n (List.length t)); reflexivity.
  - rewrite obj_get_add_same. reflexivity.
  - destruct (Nat.ltb_spec n (List.length t)) as [H|H].
    + rewrite obj_get_add_other by discriminate. rewrite obj_get_add_same. destruct (skipn n t) as [|c r] eqn:E; [|reflexivity]. apply (f_equal (@List.length _)) in E. rewrite skipn_length in E. cbn in E. lia.
    + rewrite skipn_all2 by exact H. reflexivity.
Qed.
Lemma norm_no_item nf fd t : vf_name fd = L "default" -> vf_kind fd <> KIptables -> clean t -> no_item e nf fd t ->
  exists js x, dnorm e nf (one_field fd) t [] = Ok js /\ obj_get js (L "unparsed-data") = Some x.
Proof.
  intros HF HK HN [->|(k & HR)].
  - unfold dnorm. rewrite norm_content_nil. eexists _, _. split; reflexivity.
  - destruct t as [|c t]; [unfold dnorm; rewrite norm_content_nil; eexists _, _; split; reflexivity|].
    unfold dnorm. rewrite norm_content by (auto; discriminate). rewrite HR. eexists _, _. split; reflexivity.
Qed.
Lemma norm_ub nf fd t w : vf_name fd = L "default" -> vf_kind fd <> KIptables -> clean t -> t <> [] -> run_field e nf (one_field fd) t fd 0 = Ub w -> dnorm e nf (one_field fd) t [] = Ub w.
Proof. intros HF HK HN Ht HR. unfold dnorm. rewrite norm_content by auto. rewrite HR. reflexivity. Qed.

(** ** interpret *)
Lemma cons_int_ok f ty it d fd : vf_raw f = Some (L ty ++ ":"%char :: d) -> ity ty = Some it -> clean d -> content e d fd -> cons_int e f = EOk (SInt it (one_field fd)).
Proof.
  intros HR HI HD HC. unfold cons_int. rewrite HR. unfold pargs.
  assert (HT : ~ In ":"%char (L ty) /\ ~ In NUL (L ty)).
  { unfold ity in HI. repeat match type of HI with (if ?b then _ else _) = _ => destruct b eqn:?E end; try discriminate;
      try (apply orb_prop in E; destruct E as [E|E]); repeat match goal with H : text_eqb _ _ = true |- _ => apply text_eqb_true in H; rewrite H end; cbn; intuition discriminate. }
  destruct HT as (H1 & H2). rewrite drop_nul_id.
  2:{ intros X. apply in_app_or in X. destruct X as [X|[X|X]]; [contradiction|discriminate|contradiction]. }
  rewrite psplit_more by exact H1. cbn [psplit]. fold (ity ty). rewrite HI. rewrite (gen_ctx_ok e Hue _ _ HC). reflexivity.
Qed.

Lemma run_one nf self f s before t : is_sub (vf_kind f) = true -> vf_kind f <> KTokenized -> vsub_of e (S nf) self f = EOk s ->
  run_field e (S nf) self (before ++ t) f (List.length before) =
  let* (n, v) := run_sub e (dnorm e nf) false s t in
  let p := (Z.of_nat (List.length before) + n)%Z in
  Ok (if Z.ltb p 0 then List.length (before ++ t) else Z.to_nat p, match v with Some j => j | None => JStr (cstr (firstn (Z.to_nat n) t)) end).
Proof.
  intros H1 H2 H3. rewrite run_field_S by exact H1. rewrite H3, skipn_before. destruct (vf_kind f); try reflexivity. congruence.
Qed.

Lemma run_int nf self f ty it d fd before t : vf_kind f = KInterpret -> vf_raw f = Some (L ty ++ ":"%char :: d) -> ity ty = Some it -> clean d -> content e d fd ->
  run_field e (S nf) self (before ++ t) f (List.length before) =
  let* (n, v) := run_sub e (dnorm e nf) false (SInt it (one_field fd)) t in
  let p := (Z.of_nat (List.length before) + n)%Z in
  Ok (if Z.ltb p 0 then List.length (before ++ t) else Z.to_nat p, match v with Some j => j | None => JStr (cstr (firstn (Z.to_nat n) t)) end).
Proof.
  intros HK HR HI HD HC. apply run_one; [rewrite HK; reflexivity|rewrite HK; discriminate|]. unfold vsub_of. rewrite HK. eapply cons_int_ok; eauto.
Qed.

Theorem interpret_ok nf self f ty it d fd before t s u v : vf_kind f = KInterpret -> vf_raw f = Some (L ty ++ ":"%char :: d) -> ity ty = Some it -> clean d -> content e d fd -> vf_kind fd <> KIptables -> clean t ->
  item e nf fd t (JStr s) u -> clean s -> interpreted ty s v ->
  run_field e (S nf) self (before ++ t) f (List.length before) = Ok (List.length before + List.length t - List.length u, v).
Proof.
  intros HK HR HI HD HC HF HN HT HS HV. rewrite (run_int nf self f ty it d fd) by auto. destruct (norm_item nf fd t (JStr s) u) as (js & E1 & E2 & E3 & E4 & E5 & _); auto; [eapply content_name; eauto|].
  cbn [run_sub]. rewrite E1. cbn [bind]. rewrite E2, E3. rewrite (reinterpret_ok _ _ _ _ HI HS HV). cbn [bind]. rewrite E4. cbv zeta.
  replace (jstr_len (if is_nil u then JNull else JStr u)) with (List.length u) by (destruct u; reflexivity).
  destruct (Z.ltb_spec (Z.of_nat (List.length before) + (Z.of_nat (List.length t) - Z.of_nat (List.length u))) 0); [lia|]. do 2 f_equal. lia.
Qed.
Theorem interpret_none nf self f ty it d fd before t : vf_kind f = KInterpret -> vf_raw f = Some (L ty ++ ":"%char :: d) -> ity ty = Some it -> clean d -> content e d fd -> vf_kind fd <> KIptables -> clean t ->
  no_item e nf fd t -> run_field e (S nf) self (before ++ t) f (List.length before) = Ok (List.length before, JStr []).
Proof.
  intros HK HR HI HD HC HF HN HT. rewrite (run_int nf self f ty it d fd) by auto. destruct (norm_no_item nf fd t) as (js & x & E1 & E2); auto; [eapply content_name; eauto|].
  cbn [run_sub]. rewrite E1. cbn [bind]. rewrite E2. cbn [bind]. cbv zeta. destruct (Z.ltb_spec (Z.of_nat (List.length before) + 0) 0); [lia|]. cbn [Z.to_nat firstn]. do 2 f_equal. lia.
Qed.

(** ** suffixed *)
Lemma isd_iff c ds : existsb (ceq c) ds = true <-> In c ds.
Proof. rewrite existsb_exists. split; [intros (x & H & E); apply ceq_true in E; subst; exact H|intros H; exists c; split; [exact H|apply ceq_refl]]. Qed.
Lemma strtok_S fu ds s : strtok (S fu) ds s = match skipn (scan (fun c => existsb (ceq c) ds) s) s with [] => [] | x :: r => firstn (scan (fun c => negb (existsb (ceq c) ds)) (x :: r)) (x :: r) :: strtok fu ds (skipn (scan (fun c => negb (existsb (ceq c) ds)) (x :: r)) (x :: r)) end.
Proof. cbn [strtok]. destruct (skipn (scan (fun c => existsb (ceq c) ds) s) s); reflexivity. Qed.
Lemma strtok_ok ds l t : listed ds l t -> forall fu, List.length t < fu -> strtok fu ds t = l.
Proof.
  assert (SEP : forall b r, separators ds b -> (forall c w, r = c :: w -> ~ In c ds) -> skipn (scan (fun c => existsb (ceq c) ds) (b ++ r)) (b ++ r) = r).
  { intros b r Hb Hr. rewrite (scan_app (fun c => existsb (ceq c) ds) b); [apply skipn_lapp| |].
    - eapply Forall_impl; [|exact Hb]. intros c. apply isd_iff.
    - intros c w E. destruct (existsb (ceq c) ds) eqn:EX; [|reflexivity]. apply isd_iff in EX. exfalso. eapply Hr; eauto. }
  assert (WRD : forall s r, Forall (fun c => ~ In c ds) s -> (forall c w, r = c :: w -> In c ds) -> scan (fun c => negb (existsb (ceq c) ds)) (s ++ r) = List.length s).
  { intros s r Hs Hr. apply (scan_app (fun c => negb (existsb (ceq c) ds)) s).
    - eapply Forall_impl; [|exact Hs]. cbn. intros c Hc. destruct (existsb (ceq c) ds) eqn:EX; [|reflexivity]. apply isd_iff in EX. contradiction.
    - intros c w E. rewrite (proj2 (isd_iff c ds)); [reflexivity|eauto]. }
  induction 1 as [b Hb|b s Hb Hn Hs|b s c l t Hb Hn Hs Hc H IH]; intros [|fu] Hf; try lia; rewrite strtok_S.
  - rewrite <- (app_nil_r b). rewrite SEP by (auto; discriminate). reflexivity.
  - rewrite SEP; auto. 2:{ intros c w ->. apply Forall_cons_iff in Hs. apply Hs. }
    rewrite app_length in Hf. rewrite <- (app_nil_r s). destruct (s ++ []) as [|x r] eqn:ES; [rewrite app_nil_r in ES; congruence|]. rewrite <- ES. rewrite WRD by (auto; discriminate).
    rewrite firstn_pre, skipn_lapp. f_equal; [rewrite app_nil_r; reflexivity|]. destruct fu; reflexivity.
  - rewrite SEP; auto. 2:{ intros d w E. destruct s as [|x s]; [congruence|]. injection E as -> _. apply Forall_cons_iff in Hs. apply Hs. }
    destruct (s ++ c :: t) as [|x r] eqn:ES; [destruct s; discriminate|]. rewrite <- ES. rewrite WRD by (auto; intros d w [= <- _]; exact Hc).
    rewrite firstn_pre, skipn_lapp. f_equal. rewrite !app_length in Hf. cbn [List.length] in Hf.
    destruct fu as [|fu]; [lia|]. rewrite strtok_S. specialize (IH (S fu)). rewrite strtok_S in IH.
    assert (EQ : skipn (scan (fun c0 => existsb (ceq c0) ds) (c :: t)) (c :: t) = skipn (scan (fun c0 => existsb (ceq c0) ds) t) t) by (cbn [scan]; rewrite (proj2 (isd_iff c ds) Hc); reflexivity).
    rewrite EQ. apply IH. apply (f_equal (@List.length _)) in ES. rewrite app_length in ES. cbn [List.length] in ES. destruct s; [congruence|]. cbn [List.length] in ES. lia.
Qed.

Lemma cpl_full s w : cpl s (s ++ w) = List.length s.
Proof. induction s as [|c s IH]; [destruct w; reflexivity|]. cbn [app cpl List.length]. rewrite ceq_refl, IH. reflexivity. Qed.
Lemma cpl_pre s u : cpl s u = List.length s -> exists w, u = s ++ w.
Proof.
  revert u. induction s as [|c s IH]; intros u H; [exists u; reflexivity|]. destruct u as [|d u]; [discriminate|]. cbn in H. destruct (ceq c d) eqn:E; [|discriminate].
  apply ceq_true in E. subst d. injection H as H. destruct (IH _ H) as (w & ->). exists w. reflexivity.
Qed.
Lemma suf_find_some l u s w : first_prefix l u s w -> suf_find l u = Some s.
Proof.
  intros (b & a & -> & -> & HB). induction b as [|x b IH]; cbn [app suf_find].
  - rewrite cpl_full, Nat.eqb_refl. reflexivity.
  - destruct (Nat.eqb_spec (cpl x (s ++ w)) (List.length x)) as [E|E]; [|apply IH; intros; apply HB; right; assumption].
    apply cpl_pre in E. destruct E as (w' & E). exfalso. exact (HB x (or_introl eq_refl) _ E).
Qed.
Lemma suf_find_none l u : no_prefix l u -> suf_find l u = None.
Proof.
  induction l as [|x l IH]; intros H; [reflexivity|]. cbn [suf_find]. destruct (Nat.eqb_spec (cpl x u) (List.length x)) as [E|E]; [|apply IH; intros s Hs; apply H; right; exact Hs].
  apply cpl_pre in E. destruct E as (w & E). exfalso. exact (H x (or_introl eq_refl) _ E).
Qed.

(** The arguments of suffixed *)
Lemma cons_suf_ok vname sname a1 a2 d ds lst l fd : arg a1 -> arg a2 -> clean d -> unesc e a1 ds -> unesc e a2 lst -> listed ds l lst -> l <> [] -> content e d fd ->
  cons_suf e (Some (a1 ++ ":"%char :: a2 ++ ":"%char :: d)) vname sname = EOk (SSuf l vname sname (one_field fd)).
Proof.
  intros (H1 & N1) (H2 & N2) HD (U1 & M1) (U2 & M2) HL Hl HC. unfold cons_suf, pargs. rewrite drop_nul_id.
  2:{ intros X. apply in_app_or in X. destruct X as [X|[X|X]]; [contradiction|discriminate|]. apply in_app_or in X. destruct X as [X|[X|X]]; [contradiction|discriminate|contradiction]. }
  rewrite psplit_more by exact H1. rewrite psplit_more by exact H2. cbn [psplit]. unfold unesc_arg. rewrite U1, U2, !drop_nul_id by assumption.
  rewrite (strtok_ok _ _ _ HL) by lia. destruct l as [|x l]; [congruence|]. rewrite (gen_ctx_ok e Hue _ _ HC). reflexivity.
Qed.

Lemma suf_run nf self f vn sn l fd before t : suf_args e f vn sn l fd -> l <> [] ->
  vf_name fd = L "default" /\ run_field e (S nf) self (before ++ t) f (List.length before) =
  let* (n, v) := run_sub e (dnorm e nf) false (SSuf l vn sn (one_field fd)) t in
  let p := (Z.of_nat (List.length before) + n)%Z in
  Ok (if Z.ltb p 0 then List.length (before ++ t) else Z.to_nat p, match v with Some j => j | None => JStr (cstr (firstn (Z.to_nat n) t)) end).
Proof.
  intros [a1 a2 d ds lst l' fd' HK HR A1 A2 HD U1 U2 HL HC|vn' sn' a1 a2 d ds lst l' fd' HK HR AV AS A1 A2 HD U1 U2 HL HC] Hl; (split; [eapply content_name; eauto|]).
  - apply run_one; [rewrite HK; reflexivity|rewrite HK; discriminate|]. unfold vsub_of. rewrite HK, HR. eapply cons_suf_ok; eauto.
  - apply run_one; [rewrite HK; reflexivity|rewrite HK; discriminate|]. unfold vsub_of. rewrite HK, HR. unfold pargs.
    destruct AV as (V1 & V2). destruct AS as (S1 & S2). rewrite drop_nul_id.
    2:{ destruct A1 as (_ & A1), A2 as (_ & A2). intros X. repeat (apply in_app_or in X; destruct X as [X|[X|X]]; [contradiction|discriminate|]). contradiction. }
    rewrite psplit_more by exact V1. rewrite psplit_more by exact S1. cbn [psplit]. eapply cons_suf_ok; eauto.
Qed.
Theorem suffixed_ok nf self f vn sn l fd before t v u s w : suf_args e f vn sn l fd -> vf_kind fd <> KIptables -> clean t -> vn <> sn ->
  item e nf fd t v u -> u <> [] -> first_prefix l u s w ->
  run_field e (S nf) self (before ++ t) f (List.length before) = Ok (List.length before + List.length t - List.length w, JObj [(vn, v); (sn, JStr s)]).
Proof.
  intros HA HF HN HV HI Hu HP. assert (Hl : l <> []) by (destruct HP as (b & a & -> & _); destruct b; discriminate).
  destruct (suf_run nf self f vn sn l fd before t HA Hl) as (HD & ->). destruct (norm_item nf fd t v u) as (js & E1 & E2 & E3 & E4 & E5 & E6); auto.
  cbn [run_sub]. rewrite E1. cbn [bind]. rewrite E2, E3, E4. replace (is_nil u) with false by (destruct u; [congruence|reflexivity]). cbn [jstring]. rewrite AnnotFacts.cstr_id by exact E6.
  rewrite (suf_find_some _ _ _ _ HP). cbn [bind jstr_len]. cbv zeta. destruct HP as (b & a & _ & -> & _). rewrite app_length in *.
  destruct (Z.ltb_spec (Z.of_nat (List.length before) + (Z.of_nat (List.length t) - Z.of_nat (List.length s + List.length w) + Z.of_nat (List.length s))) 0); [lia|].
  cbn [obj_add]. rewrite (text_eqb_neq sn vn) by congruence. f_equal. f_equal. lia.
Qed.
Theorem suffixed_none nf self f vn sn l fd before t : suf_args e f vn sn l fd -> l <> [] -> vf_kind fd <> KIptables -> clean t ->
  no_item e nf fd t \/ (exists v u, item e nf fd t v u /\ u <> [] /\ no_prefix l u) ->
  run_field e (S nf) self (before ++ t) f (List.length before) = Ok (List.length before, JStr []).
Proof.
  intros HA Hl HF HN HI. destruct (suf_run nf self f vn sn l fd before t HA Hl) as (HD & ->).
  assert (G : run_sub e (dnorm e nf) false (SSuf l vn sn (one_field fd)) t = Ok (0%Z, None)).
  { destruct HI as [HI|(v & u & HI & Hu & HP)].
    - destruct (norm_no_item nf fd t) as (js & x & E1 & E2); auto. cbn [run_sub]. rewrite E1. cbn [bind]. rewrite E2. reflexivity.
    - destruct (norm_item nf fd t v u) as (js & E1 & E2 & E3 & E4 & E5 & E6); auto. cbn [run_sub]. rewrite E1. cbn [bind]. rewrite E2, E4.
      replace (is_nil u) with false by (destruct u; [congruence|reflexivity]). cbn [jstring]. rewrite AnnotFacts.cstr_id by exact E6. rewrite (suf_find_none _ _ HP). reflexivity. }
  rewrite G. cbn [bind]. cbv zeta. destruct (Z.ltb_spec (Z.of_nat (List.length before) + 0) 0); [lia|]. cbn [Z.to_nat firstn]. do 2 f_equal. lia.
Qed.
Theorem suffixed_null nf self f vn sn l fd before t v : suf_args e f vn sn l fd -> l <> [] -> vf_kind fd <> KIptables -> clean t ->
  item e nf fd t v [] -> run_field e (S nf) self (before ++ t) f (List.length before) = Ub NullDeref.
Proof.
  intros HA Hl HF HN HI. destruct (suf_run nf self f vn sn l fd before t HA Hl) as (HD & ->).
  destruct (norm_item nf fd t v []) as (js & E1 & E2 & E3 & E4 & E5 & E6); auto. cbn [run_sub]. rewrite E1. cbn [bind]. rewrite E2, E4. reflexivity.
Qed.
End S.
