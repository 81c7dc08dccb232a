(** * FieldFacts12: ipv6. *)
From Verif Require Import Base Time Parsers BaseFacts FieldSpec FieldSpec2 SafetySpec FieldFacts FieldFacts2 FieldFacts3 FieldFacts4 IntFacts DateFacts FieldFacts6 FieldFacts7 FieldFacts8.
From Coq Require Import ZifyBool ZifyNat ZifyN.

Definition xhd (r : text) : Prop := exists c q, r = c :: q /\ isxdigit c = true.
Definition xrun (b r : text) : Prop := Forall (fun c => isxdigit c = true) b /\ List.length b <= 4 /\ (List.length b < 4 -> ~ xhd r).
Lemma xrun_split u : exists b r, u = b ++ r /\ xrun b r /\ (xhd u -> b <> []).
Proof.
  destruct (run_split isxdigit u) as (x & y & -> & HX & HY & _). destruct (le_lt_dec (List.length x) 4) as [Hl|Hl].
  - exists x, y. split; [reflexivity|]. split.
    + split; [exact HX|]. split; [exact Hl|]. intros _ (c & q & -> & Hc). rewrite (HY c q eq_refl) in Hc. discriminate.
    + intros (c & q & HE & Hc) ->. cbn in HE. rewrite (HY c q HE) in Hc. discriminate.
  - exists (firstn 4 x), (skipn 4 x ++ y). split; [rewrite app_assoc, firstn_skipn; reflexivity|]. assert (HL : List.length (firstn 4 x) = 4) by (apply firstn_length_le; lia). split.
    + split; [apply Forall_forall; intros c Hc; rewrite Forall_forall in HX; apply HX; rewrite <- (firstn_skipn 4 x); apply in_or_app; left; exact Hc|]. split; [lia|]. intros HH. lia.
    + intros _ HE. rewrite HE in HL. discriminate.
Qed.
Lemma scan4 b r : xrun b r -> scan isxdigit (firstn 4 (b ++ r)) = List.length b.
Proof.
  intros (H1 & H2 & H3). rewrite firstn_app. assert (HF : firstn 4 b = b) by (apply firstn_all2; lia). rewrite HF. apply scan_run; [exact H1|].
  intros c q HE. destruct (isxdigit c) eqn:EX; [|reflexivity]. exfalso. destruct (le_lt_dec 4 (List.length b)) as [HH|HH].
  - replace (4 - List.length b) with 0 in HE by lia. discriminate.
  - apply (H3 HH). destruct r as [|d r]; [rewrite firstn_nil in HE; discriminate|]. replace (4 - List.length b) with (S (3 - List.length b)) in HE by lia. cbn [firstn] in HE. injection HE as -> _. exists c, r. auto.
Qed.

Definition step_result (j : nat) (a b r : text) (bg nb : nat) (had : bool) : res (nat * nat * nat * bool * bool) :=
  match r with
  | [] => Ok (List.length a, List.length (a ++ b), S nb, had, false)
  | c :: r1 =>
      if isspace c then Ok (List.length a, List.length (a ++ b), S nb, had, false)
      else if ceq c "." then Ok (List.length a, List.length (a ++ b), S nb, had, true)
      else if ceq c ":" then
        match r1 with
        | [] => Ok (List.length a, List.length (a ++ b ++ L ":"), S nb, had, false)
        | d :: r2 =>
            if had then if ceq d ":" then Bad 0 else ipv6_loop j ((a ++ b ++ L ":") ++ r1) (List.length a) (List.length (a ++ b ++ L ":")) (S nb) had
            else if ceq d ":" then
              match r2 with
              | [] => Ok (List.length a, List.length (a ++ b ++ L "::"), S nb, true, false)
              | _ => ipv6_loop j ((a ++ b ++ L "::") ++ r2) (List.length a) (List.length (a ++ b ++ L "::")) (S nb) true
              end
            else ipv6_loop j ((a ++ b ++ L ":") ++ r1) (List.length a) (List.length (a ++ b ++ L ":")) (S nb) false
        end
      else Bad 0
  end.
Lemma eqb_app (a b : text) c r : Nat.eqb (List.length a) (List.length (a ++ c :: r)) = false.
Proof. apply Nat.eqb_neq. rewrite app_length. cbn. lia. Qed.
Lemma step6 j a b r bg nb had : xrun b r -> b ++ r <> [] ->
  ipv6_loop (S j) (a ++ b ++ r) bg (List.length a) nb had = step_result j a b r bg nb had.
Proof.
  intros HX Hne. cbn [ipv6_loop].
  replace (Nat.eqb (List.length a) (List.length (a ++ b ++ r))) with false by (symmetry; apply Nat.eqb_neq; rewrite app_length; destruct (b ++ r); [congruence|cbn; lia]). cbn [negb].
  rewrite skipn_app_exact, scan4 by exact HX. rewrite <- app_length. rewrite (app_assoc a b r). unfold step_result. destruct r as [|c r1].
  { rewrite app_nil_r, Nat.eqb_refl. reflexivity. }
  rewrite (eqb_app (a ++ b) []). rewrite rd_app1 by reflexivity. cbn [bind]. destruct (isspace c); [reflexivity|]. destruct (ceq c ".") eqn:ED; [reflexivity|].
  destruct (ceq c ":") eqn:EC; [|reflexivity]. apply ceq_true in EC. subst c. 
  assert (H1 : forall w, (a ++ b) ++ ":"%char :: w = (a ++ b ++ L ":") ++ w) by (intros w; rewrite <- !app_assoc; reflexivity).
  assert (HL : S (List.length (a ++ b)) = List.length (a ++ b ++ L ":")) by (rewrite !app_length; cbn [L list_ascii_of_string List.length]; lia).
  rewrite H1, HL. destruct r1 as [|d r2]; [rewrite app_nil_r, Nat.eqb_refl; reflexivity|].
  rewrite (eqb_app (a ++ b ++ L ":") []). rewrite rd_app1 by reflexivity. cbn [bind]. destruct had; [destruct (ceq d ":"); reflexivity|].
  destruct (ceq d ":") eqn:ED2; [|reflexivity]. apply ceq_true in ED2. subst d.
  assert (H2 : forall w, (a ++ b ++ L ":") ++ ":"%char :: w = (a ++ b ++ L "::") ++ w) by (intros w; rewrite <- !app_assoc; reflexivity).
  assert (HL2 : S (List.length (a ++ b ++ L ":")) = List.length (a ++ b ++ L "::")) by (rewrite !app_length; cbn [L list_ascii_of_string List.length]; lia).
  rewrite H2, HL2. destruct r2 as [|x r2]; [rewrite app_nil_r, Nat.eqb_refl; reflexivity|]. rewrite (eqb_app (a ++ b ++ L "::") []). reflexivity.
Qed.

Lemma xd_facts : forall c, implb (isxdigit c) (negb (isspace c) && negb (ceq c ".") && negb (ceq c ":"))%bool = true. Proof. sweep. Qed.
Lemma sp_facts : forall c, implb (isspace c) (negb (isxdigit c) && negb (ceq c ".") && negb (ceq c ":"))%bool = true. Proof. sweep. Qed.
Lemma xd c : isxdigit c = true -> isspace c = false /\ ceq c "." = false /\ ceq c ":" = false.
Proof. intros H. pose proof (xd_facts c) as G. rewrite H in G. cbn [implb] in G. rewrite !andb_true_iff, !negb_true_iff in G. tauto. Qed.
Lemma spf c : isspace c = true -> isxdigit c = false /\ ceq c "." = false /\ ceq c ":" = false.
Proof. intros H. pose proof (sp_facts c) as G. rewrite H in G. cbn [implb] in G. rewrite !andb_true_iff, !negb_true_iff in G. tauto. Qed.

Definition xb (b : text) : Prop := 1 <= List.length b <= 4 /\ Forall (fun c => isxdigit c = true) b.
Lemma xb_iff b : xb b <-> hexblock b.
Proof. unfold xb, hexblock. split; intros [H1 H2]; (split; [exact H1|]); eapply Forall_impl; [|exact H2|..|exact H2]; intros c; apply isxdigit_iff. Qed.
Lemma xbs_iff bs : Forall xb bs <-> Forall hexblock bs.
Proof. split; intros H; (eapply Forall_impl; [|exact H]); intros b; apply xb_iff. Qed.
Lemma xb_hd b r : xb b -> xhd (b ++ r).
Proof. intros [H1 H2]. destruct b as [|c b]; [cbn in H1; lia|]. apply Forall_inv in H2. exists c, (b ++ r). auto. Qed.
Lemma xb_run b r : xb b -> ~ xhd r -> xrun b r.
Proof. intros [H1 H2] H3. split; [exact H2|]. split; [lia|auto]. Qed.

Notation jn := (joined (L ":")).
Notation cc := each_colon.
Lemma jn_cons b bs : jn (b :: bs) = b ++ match bs with [] => [] | _ => L ":" ++ jn bs end.
Proof. destruct bs; cbn [joined]; [rewrite app_nil_r; reflexivity|reflexivity]. Qed.
Lemma cc_cons b bs : cc (b :: bs) = b ++ L ":" ++ cc bs.
Proof. unfold cc. cbn [map List.concat]. rewrite <- app_assoc. reflexivity. Qed.
Lemma ends_iff post : ends_here post <-> match post with [] => True | c :: _ => isspace c = true end.
Proof.
  unfold ends_here. destruct post as [|c r]; [tauto|]. rewrite isspace_iff. split.
  - intros [H|(d & q & H & Hs)]; [discriminate|]. injection H as -> _. exact Hs.
  - intros H. right. exists c, r. auto.
Qed.
Lemma ends_nx post : ends_here post -> ~ xhd post.
Proof. intros H (c & q & -> & Hc). apply ends_iff in H. apply xd in Hc. destruct Hc as [Hc _]. congruence. Qed.

(** completeness of the chain of blocks *)
Lemma chain1 had : forall bs j a post bg nb, Forall xb bs -> 1 <= List.length bs <= j -> ends_here post ->
  exists bg', ipv6_loop j (a ++ jn bs ++ post) bg (List.length a) nb had = Ok (bg', List.length (a ++ jn bs), nb + List.length bs, had, false).
Proof.
  induction bs as [|b bs IH]; intros j a post bg nb HF HL HE; [cbn in HL; lia|]. cbn [List.length] in HL. destruct j as [|j]; [lia|].
  pose proof (Forall_inv HF) as Hb. apply Forall_inv_tail in HF. rewrite jn_cons. rewrite <- (app_assoc b). rewrite step6.
  2: { apply xb_run; [exact Hb|]. destruct bs; [apply ends_nx; exact HE|]. intros (c & q & HH & Hc). injection HH as <- _. discriminate. }
  2: { destruct b; [destruct Hb as [Hb _]; cbn in Hb; lia|discriminate]. }
  destruct bs as [|b2 bs].
  - cbn [app]. unfold step_result. rewrite app_nil_r. exists (List.length a). apply ends_iff in HE. destruct post as [|c post]; [|rewrite HE]; cbn [List.length]; f_equal; f_equal; f_equal; f_equal; lia.
  - cbn [List.length] in HL. destruct (IH j (a ++ b ++ L ":") post (List.length a) (S nb) HF ltac:(cbn [List.length]; lia) HE) as (bg' & HI). exists bg'.
    assert (HJ2 : forall w, L ":" ++ jn (b2 :: bs) ++ w = ":"%char :: jn (b2 :: bs) ++ w) by reflexivity.
    rewrite <- (app_assoc (L ":")). rewrite HJ2. unfold step_result. change (isspace ":") with false. change (ceq ":" ".") with false. change (ceq ":" ":") with true. cbv iota.
    destruct (xb_hd b2 (match bs with [] => [] | _ => L ":" ++ jn bs end ++ post) (Forall_inv HF)) as (d & q & HD & Hd).
    assert (HJ : jn (b2 :: bs) ++ post = d :: q) by (rewrite jn_cons, <- app_assoc; exact HD). rewrite HJ in *. apply xd in Hd. destruct Hd as (_ & _ & Hd). rewrite Hd.
    replace (a ++ b ++ L ":" ++ jn (b2 :: bs)) with ((a ++ b ++ L ":") ++ jn (b2 :: bs)) by (rewrite <- !app_assoc; reflexivity).
    cbn [List.length] in HI |- *. replace (nb + S (S (List.length bs))) with (S nb + S (List.length bs)) by lia. destruct had; exact HI.
Qed.
Lemma chain4 had : forall bs j a b r bg nb, Forall xb bs -> List.length bs < j -> xb b ->
  exists i, ipv6_loop j (a ++ cc bs ++ b ++ L "." ++ r) bg (List.length a) nb had = Ok (List.length (a ++ cc bs), i, nb + S (List.length bs), had, true).
Proof.
  induction bs as [|b1 bs IH]; intros j a b r bg nb HF HL HB; (destruct j as [|j]; [lia|]).
  - change (cc []) with (@nil ascii). rewrite app_nil_r. cbn [app]. rewrite step6.
    2: { apply xb_run; [exact HB|]. intros (c & q & HH & Hc). injection HH as <- _. discriminate. }
    2: { destruct b; [destruct HB as [HB _]; cbn in HB; lia|discriminate]. }
    cbn [step_result]. change (isspace ".") with false. change (ceq "." ".") with true. cbv iota. eexists. cbn [List.length]. rewrite Nat.add_1_r. reflexivity.
  - pose proof (Forall_inv HF) as Hb. apply Forall_inv_tail in HF. rewrite cc_cons. rewrite <- !app_assoc. rewrite step6.
    2: { apply xb_run; [exact Hb|]. intros (c & q & HH & Hc). injection HH as <- _. discriminate. }
    2: { destruct b1; [destruct Hb as [Hb _]; cbn in Hb; lia|discriminate]. }
    cbn [List.length] in HL. destruct (IH j (a ++ b1 ++ L ":") b r (List.length a) (S nb) HF ltac:(lia) HB) as (i & HI). exists i.
    assert (HJ2 : forall w, L ":" ++ cc bs ++ w = ":"%char :: cc bs ++ w) by reflexivity. rewrite HJ2.
    unfold step_result. change (isspace ":") with false. change (ceq ":" ".") with false. change (ceq ":" ":") with true. cbv iota.
    assert (HX : xhd (cc bs ++ b ++ L "." ++ r)) by (destruct bs as [|b2 bs]; [change (cc []) with (@nil ascii); cbn [app]; apply xb_hd; exact HB|rewrite cc_cons, <- app_assoc; apply xb_hd; apply Forall_inv in HF; exact HF]).
    destruct HX as (d & q & HD & Hd). rewrite HD in *. apply xd in Hd. destruct Hd as (_ & _ & Hd). rewrite Hd.
    replace (a ++ b1 ++ L ":" ++ cc bs) with ((a ++ b1 ++ L ":") ++ cc bs) by (rewrite <- !app_assoc; reflexivity).
    cbn [List.length]. replace (nb + S (S (List.length bs))) with (S nb + S (List.length bs)) by lia. destruct had; exact HI.
Qed.
Lemma chainA : forall bs j a u bg nb, Forall xb bs -> 1 <= List.length bs <= j ->
  exists bg', ipv6_loop j (a ++ jn bs ++ L "::" ++ u) bg (List.length a) nb false =
  match u with [] => Ok (bg', List.length (a ++ jn bs ++ L "::"), nb + List.length bs, true, false)
  | _ => ipv6_loop (j - List.length bs) ((a ++ jn bs ++ L "::") ++ u) bg' (List.length (a ++ jn bs ++ L "::")) (nb + List.length bs) true end.
Proof.
  induction bs as [|b bs IH]; intros j a u bg nb HF HL; [cbn in HL; lia|]. cbn [List.length] in HL. destruct j as [|j]; [lia|].
  pose proof (Forall_inv HF) as Hb. apply Forall_inv_tail in HF. rewrite jn_cons. rewrite <- (app_assoc b). rewrite step6.
  2: { apply xb_run; [exact Hb|]. destruct bs; (intros (c & q & HH & Hc); injection HH as <- _; discriminate). }
  2: { destruct b; [destruct Hb as [Hb _]; cbn in Hb; lia|discriminate]. }
  destruct bs as [|b2 bs].
  - exists (List.length a). rewrite app_nil_r. cbn [app L list_ascii_of_string List.length]. unfold step_result. change (isspace ":") with false. change (ceq ":" ".") with false. change (ceq ":" ":") with true. cbv iota.
    rewrite Nat.add_1_r. replace (S j - 1) with j by lia. destruct u; reflexivity.
  - cbn [List.length] in HL. destruct (IH j (a ++ b ++ L ":") u (List.length a) (S nb) HF ltac:(cbn [List.length]; lia)) as (bg' & HI). exists bg'.
    assert (HJ2 : forall w, L ":" ++ jn (b2 :: bs) ++ w = ":"%char :: jn (b2 :: bs) ++ w) by reflexivity.
    rewrite <- (app_assoc (L ":")). rewrite HJ2. unfold step_result. change (isspace ":") with false. change (ceq ":" ".") with false. change (ceq ":" ":") with true. cbv iota.
    destruct (xb_hd b2 (match bs with [] => [] | _ => L ":" ++ jn bs end ++ L "::" ++ u) (Forall_inv HF)) as (d & q & HD & Hd).
    assert (HJ : jn (b2 :: bs) ++ L "::" ++ u = d :: q) by (rewrite jn_cons, <- app_assoc; exact HD). rewrite HJ in *. apply xd in Hd. destruct Hd as (_ & _ & Hd). rewrite Hd.
    rewrite HI. cbn [List.length]. rewrite <- !app_assoc. replace (nb + S (S (List.length bs))) with (S nb + S (List.length bs)) by lia. replace (S j - S (S (List.length bs))) with (j - S (List.length bs)) by lia. reflexivity.
Qed.

(** soundness *)
Definition bad_tail (t : text) (i : nat) : Prop := exists p x r, t = (p ++ [x; ":"%char]) ++ r /\ ceq x ":" = false /\ i = List.length (p ++ [x; ":"%char]).
Inductive chain_end (j : nat) (a u : text) (nb : nat) (had : bool) (z : nat * nat * nat * bool * bool) : Prop :=
| ce_out bg i : z = (bg, i, nb + j, had, false) -> chain_end j a u nb had z
| ce_full bs post bg : Forall xb bs -> 1 <= List.length bs <= j -> u = jn bs ++ post -> ends_here post -> z = (bg, List.length (a ++ jn bs), nb + List.length bs, had, false) -> chain_end j a u nb had z
| ce_four bs u4 i : Forall xb bs -> List.length bs < j -> u = cc bs ++ u4 -> z = (List.length (a ++ cc bs), i, nb + S (List.length bs), had, true) -> chain_end j a u nb had z
| ce_bad bg i nb' : bad_tail (a ++ u) i -> z = (bg, i, nb', had, false) -> chain_end j a u nb had z
| ce_abbr bs u' : had = false -> Forall xb bs -> 1 <= List.length bs <= j -> u = jn bs ++ L "::" ++ u' ->
    match u' with [] => exists bg, z = (bg, List.length (a ++ jn bs ++ L "::"), nb + List.length bs, true, false)
    | _ => exists bg, ipv6_loop (j - List.length bs) ((a ++ jn bs ++ L "::") ++ u') bg (List.length (a ++ jn bs ++ L "::")) (nb + List.length bs) true = Ok z end -> chain_end j a u nb had z.
Lemma split_last (b : text) : b <> [] -> exists p x, b = p ++ [x].
Proof. intros H. destruct (exists_last H) as (p & x & ->). eauto. Qed.

Lemma chain_sound had : forall j a u bg nb z, xhd u -> ipv6_loop j (a ++ u) bg (List.length a) nb had = Ok z -> chain_end j a u nb had z.
Proof.
  induction j as [|j IH]; intros a u bg nb z Hx H.
  { cbn in H. injection H as <-. eapply ce_out. rewrite Nat.add_0_r. reflexivity. }
  destruct (xrun_split u) as (b & r & -> & HR & Hb). specialize (Hb Hx). pose proof HR as (HR1 & HR2 & HR3).
  assert (HXB : xb b) by (split; [destruct b; [congruence|cbn in *; lia]|exact HR1]).
  assert (Hne : b ++ r <> []) by (destruct b; [congruence|discriminate]).
  rewrite step6 in H by assumption. unfold step_result in H.
  assert (HONE : Forall xb [b]) by (constructor; [exact HXB|constructor]).
  assert (HBT : forall w, bad_tail (a ++ b ++ L ":" ++ w) (List.length (a ++ b ++ L ":"))).
  { intros w. destruct (split_last b Hb) as (p & x & ->). exists (a ++ p), x, w. split; [rewrite <- !app_assoc; reflexivity|]. split; [|rewrite <- !app_assoc; reflexivity].
    apply Forall_app in HR1. destruct HR1 as [_ HR1]. apply Forall_inv in HR1. apply xd in HR1. tauto. }
  assert (HLX : forall w, List.length (a ++ b ++ L ":") = List.length (a ++ b ++ L ":") + 0 /\ w = w :> nat) by (intros; split; [lia|reflexivity]). clear HLX.
  destruct r as [|c r1].
  { injection H as <-. apply (ce_full _ _ _ _ _ _ [b] [] (List.length a)); [exact HONE|cbn; lia|rewrite jn_cons; rewrite !app_nil_r; reflexivity|left; reflexivity|].
    cbn [joined List.length]. rewrite Nat.add_1_r. reflexivity. }
  destruct (isspace c) eqn:ES.
  { injection H as <-. apply (ce_full _ _ _ _ _ _ [b] (c :: r1) (List.length a)); [exact HONE|cbn; lia|reflexivity|apply ends_iff; exact ES|].
    cbn [joined List.length]. rewrite Nat.add_1_r. reflexivity. }
  destruct (ceq c ".") eqn:ED.
  { injection H as <-. apply (ce_four _ _ _ _ _ _ [] (b ++ c :: r1) (List.length (a ++ b))); [constructor|cbn; lia|reflexivity|]. change (cc []) with (@nil ascii). rewrite app_nil_r. cbn [List.length]. rewrite Nat.add_1_r. reflexivity. }
  destruct (ceq c ":") eqn:EC; [|discriminate]. apply ceq_true in EC. subst c.
  destruct r1 as [|d r2].
  { injection H as <-. eapply ce_bad; [|reflexivity]. apply (HBT []). }
  (* the next block *)
  assert (HNEXT : ceq d ":" = false -> ipv6_loop j ((a ++ b ++ L ":") ++ d :: r2) (List.length a) (List.length (a ++ b ++ L ":")) (S nb) had = Ok z -> chain_end (S j) a (b ++ ":"%char :: d :: r2) nb had z).
  { intros Hd HL. destruct j as [|j'].
    { cbn in HL. injection HL as <-. eapply ce_out. rewrite Nat.add_1_r. reflexivity. }
    destruct (isxdigit d) eqn:EX.
    - assert (Hxd : xhd (d :: r2)) by (exists d, r2; auto).
      destruct (IH (a ++ b ++ L ":") (d :: r2) (List.length a) (S nb) z Hxd HL) as [bg0 i0 Hz|bs post bg0 HF Hl Hu He Hz|bs u4 i0 HF Hl Hu Hz|bg0 i0 nb0 HB Hz|bs u' Hh HF Hl Hu Hz].
      + eapply ce_out. rewrite Hz. f_equal. f_equal. f_equal. lia.
      + apply (ce_full _ _ _ _ _ _ (b :: bs) post bg0); [constructor; assumption|cbn [List.length]; lia| |exact He|].
        * rewrite jn_cons, Hu, <- !app_assoc. destruct bs; [cbn in Hl; lia|]. rewrite <- app_assoc. reflexivity.
        * rewrite Hz, jn_cons. cbn [List.length]. destruct bs; [cbn in Hl; lia|]. rewrite <- !app_assoc. f_equal. f_equal. f_equal. lia.
      + apply (ce_four _ _ _ _ _ _ (b :: bs) u4 i0); [constructor; assumption|cbn [List.length]; lia|rewrite cc_cons, Hu, <- !app_assoc; reflexivity|].
        rewrite Hz, cc_cons. cbn [List.length]. rewrite <- !app_assoc. f_equal. f_equal. f_equal. lia.
      + eapply ce_bad; [|exact Hz]. replace (a ++ b ++ ":"%char :: d :: r2) with ((a ++ b ++ L ":") ++ d :: r2) by (rewrite <- !app_assoc; reflexivity). exact HB.
      + apply (ce_abbr _ _ _ _ _ _ (b :: bs) u'); [exact Hh|constructor; assumption|cbn [List.length]; lia| |].
        * rewrite jn_cons, Hu, <- !app_assoc. destruct bs; [cbn in Hl; lia|]. rewrite <- app_assoc. reflexivity.
        * assert (HA : a ++ jn (b :: bs) ++ L "::" = (a ++ b ++ L ":") ++ jn bs ++ L "::") by (rewrite jn_cons; destruct bs; [cbn in Hl; lia|]; rewrite <- !app_assoc; reflexivity).
          rewrite HA. cbn [List.length]. replace (nb + S (List.length bs)) with (S nb + List.length bs) by lia. replace (S (S j') - S (List.length bs)) with (S j' - List.length bs) by lia. exact Hz.
    - assert (HR0 : xrun [] (d :: r2)) by (split; [constructor|split; [cbn; lia|intros _ (c & q & HE & Hc); injection HE as <- _; congruence]]).
      change (d :: r2) with ([] ++ d :: r2) in HL at 1. rewrite step6 in HL; [|exact HR0|discriminate]. unfold step_result in HL. rewrite app_nil_r in HL.
      destruct (isspace d).
      { injection HL as <-. eapply ce_bad; [|reflexivity]. apply (HBT (d :: r2)). }
      destruct (ceq d ".").
      { injection HL as <-. apply (ce_four _ _ _ _ _ _ [b] (d :: r2) (List.length (a ++ b ++ L ":"))); [exact HONE|cbn; lia|rewrite cc_cons, <- !app_assoc; reflexivity|].
        rewrite cc_cons. change (cc []) with (@nil ascii). rewrite app_nil_r. cbn [List.length]. f_equal. f_equal. f_equal. lia. }
      rewrite Hd in HL. discriminate. }
  destruct (ceq d ":") eqn:Ed.
  - destruct had; [discriminate|]. apply ceq_true in Ed. subst d.
    apply (ce_abbr _ _ _ _ _ _ [b] r2); [reflexivity|exact HONE|cbn; lia|reflexivity|]. cbn [joined List.length]. rewrite Nat.add_1_r. replace (S j - 1) with j by lia.
    destruct r2 as [|x r2]; [injection H as <-; eauto|eauto].
  - apply HNEXT; [reflexivity|]. destruct had; exact H.
Qed.

(** behind the abbreviation *)
Definition extra (rs : list text) (post : text) : nat := match rs, post with [], _ :: _ => 1 | _, _ => 0 end.
Definition stray_ok (s : text) : Prop := s = [] \/ s = L ":".
Inductive abbr_end (j : nat) (a u : text) (nb : nat) (z : nat * nat * nat * bool * bool) : Prop :=
| ae_out bg i : z = (bg, i, nb + j, true, false) -> abbr_end j a u nb z
| ae_full s rs post bg : stray_ok s -> Forall xb rs -> u = s ++ jn rs ++ post -> ends_here post ->
    z = (bg, List.length (a ++ s ++ jn rs), nb + List.length s + List.length rs + extra rs post, true, false) -> abbr_end j a u nb z
| ae_four s rs u4 i : stray_ok s -> Forall xb rs -> u = s ++ cc rs ++ u4 ->
    z = (List.length (a ++ s ++ cc rs), i, nb + List.length s + S (List.length rs), true, true) -> abbr_end j a u nb z
| ae_bad bg i nb' : bad_tail (a ++ u) i -> z = (bg, i, nb', true, false) -> abbr_end j a u nb z.
Lemma nx_run d r : isxdigit d = false -> xrun [] (d :: r).
Proof. intros H. split; [constructor|split; [cbn; lia|intros _ (c & q & HE & Hc); injection HE as <- _; congruence]]. Qed.
(** one block start behind "::" or ":::", the next character being no colon *)
Lemma abbr_rest j a s u bg nb z : stray_ok s -> u <> [] -> (forall r, u <> ":"%char :: r) ->
  ipv6_loop j ((a ++ s) ++ u) bg (List.length (a ++ s)) (nb + List.length s) true = Ok z -> List.length s <= 1 ->
  abbr_end (List.length s + j) a (s ++ u) nb z.
Proof.
  intros Hs Hne Hc H Hl1. destruct u as [|d r]; [congruence|]. destruct j as [|j].
  { cbn in H. injection H as <-. eapply ae_out. f_equal. f_equal. f_equal. lia. }
  destruct (isxdigit d) eqn:EX.
  - assert (Hxd : xhd (d :: r)) by (exists d, r; auto).
    destruct (chain_sound _ _ _ _ _ _ _ Hxd H) as [bg0 i0 Hz|bs post bg0 HF Hl Hu He Hz|bs u4 i0 HF Hl Hu Hz|bg0 i0 nb0 HB Hz|bs u' Hh HF Hl Hu Hz].
    + eapply ae_out. rewrite Hz. f_equal. f_equal. f_equal. lia.
    + apply (ae_full _ _ _ _ _ s bs post bg0); auto; [rewrite Hu; reflexivity|]. rewrite Hz, <- !app_assoc. f_equal. f_equal. f_equal. destruct bs; [cbn in Hl; lia|]. cbn [extra]. lia.
    + apply (ae_four _ _ _ _ _ s bs u4 i0); auto; [rewrite Hu; reflexivity|]. rewrite Hz, <- !app_assoc. reflexivity.
    + eapply ae_bad; [|exact Hz]. rewrite <- app_assoc in HB. exact HB.
    + discriminate.
  - change (d :: r) with ([] ++ d :: r) in H at 1. rewrite step6 in H; [|apply nx_run; exact EX|discriminate]. unfold step_result in H. rewrite app_nil_r in H. destruct (isspace d) eqn:ES.
    { injection H as <-. apply (ae_full _ _ _ _ _ s [] (d :: r) (List.length (a ++ s))); auto; [apply ends_iff; exact ES|]. cbn [joined extra List.length]. rewrite app_nil_r. f_equal. f_equal. f_equal. lia. }
    destruct (ceq d ".").
    { injection H as <-. apply (ae_four _ _ _ _ _ s [] (d :: r) (List.length (a ++ s))); auto. change (cc []) with (@nil ascii). rewrite app_nil_r. cbn [List.length]. f_equal. f_equal. f_equal. lia. }
    destruct (ceq d ":") eqn:Ed; [|discriminate]. apply ceq_true in Ed. subst d. exfalso. apply (Hc r). reflexivity.
Qed.
Lemma abbr_sound j a u bg nb z : u <> [] -> ipv6_loop j (a ++ u) bg (List.length a) nb true = Ok z -> abbr_end j a u nb z.
Proof.
  intros Hne H. destruct u as [|d r]; [congruence|]. destruct (ceq d ":") eqn:Ed.
  - apply ceq_true in Ed. subst d. destruct j as [|j].
    { cbn in H. injection H as <-. eapply ae_out. rewrite Nat.add_0_r. reflexivity. }
    change (":"%char :: r) with ([] ++ ":"%char :: r) in H at 1. rewrite step6 in H; [|apply nx_run; reflexivity|discriminate]. unfold step_result in H.
    change (isspace ":") with false in H. change (ceq ":" ".") with false in H. change (ceq ":" ":") with true in H. cbv iota in H. cbn [app] in H.
    destruct r as [|e r].
    + injection H as <-. apply (ae_full _ _ _ _ _ (L ":") [] [] (List.length a)); [right; reflexivity|constructor|reflexivity|left; reflexivity|]. cbn [joined extra List.length]. rewrite app_nil_r. f_equal. f_equal. f_equal. cbn [L list_ascii_of_string List.length]. lia.
    + destruct (ceq e ":") eqn:Ee; [discriminate|]. apply (abbr_rest j a (L ":") (e :: r) (List.length a)); [right; reflexivity|discriminate| | |cbn; lia].
      * intros q HE. injection HE as -> _. discriminate.
      * cbn [L list_ascii_of_string List.length]. rewrite Nat.add_1_r. exact H.
  - apply (abbr_rest j a [] (d :: r) bg nb z); [left; reflexivity|discriminate| | |cbn; lia].
    + intros q HE. injection HE as -> _. discriminate.
    + rewrite app_nil_r. cbn [List.length]. rewrite Nat.add_0_r. exact H.
Qed.
(** completeness *)
Lemma loop_stray j a w bg nb : w <> [] -> (forall r, w <> ":"%char :: r) ->
  ipv6_loop (S j) (a ++ L ":" ++ w) bg (List.length a) nb true = ipv6_loop j ((a ++ L ":") ++ w) (List.length a) (List.length (a ++ L ":")) (S nb) true.
Proof.
  intros H1 H2. change (L ":" ++ w) with ([] ++ ":"%char :: w). rewrite step6; [|apply nx_run; reflexivity|discriminate]. unfold step_result.
  change (isspace ":") with false. change (ceq ":" ".") with false. change (ceq ":" ":") with true. cbv iota. cbn [app]. destruct w as [|d r]; [congruence|].
  destruct (ceq d ":") eqn:Ed; [apply ceq_true in Ed; subst d; exfalso; apply (H2 r); reflexivity|]. reflexivity.
Qed.
Lemma hd_not_colon c r : isxdigit c = true -> forall q, c :: r <> ":"%char :: q.
Proof. intros H q HE. injection HE as -> _. discriminate. Qed.
Lemma abbr_full j a s rs post bg nb : stray_ok s -> Forall xb rs -> ends_here post -> s ++ jn rs ++ post <> [] ->
  List.length s + List.length rs + extra rs post <= j ->
  exists bg', ipv6_loop j (a ++ s ++ jn rs ++ post) bg (List.length a) nb true = Ok (bg', List.length (a ++ s ++ jn rs), nb + List.length s + List.length rs + extra rs post, true, false).
Proof.
  intros Hs HF HE Hne Hj.
  assert (HREST : forall j a bg nb, jn rs ++ post <> [] -> List.length rs + extra rs post <= j ->
    exists bg', ipv6_loop j (a ++ jn rs ++ post) bg (List.length a) nb true = Ok (bg', List.length (a ++ jn rs), nb + List.length rs + extra rs post, true, false)).
  { clear - HF HE. intros j a bg nb Hne Hj. destruct rs as [|r0 rs].
    - destruct post as [|c post]; [cbn in Hne; congruence|]. cbn [extra List.length] in Hj. destruct j as [|j]; [lia|]. cbn [joined]. apply ends_iff in HE. pose proof (spf _ HE) as (G1 & G2 & G3).
      rewrite step6; [|apply nx_run; exact G1|discriminate]. unfold step_result. rewrite HE. exists (List.length a). cbn [extra List.length]. f_equal. f_equal. f_equal. f_equal. lia.
    - destruct (chain1 true (r0 :: rs) j a post bg nb HF) as (bg' & HC); [cbn [extra List.length] in *; lia|exact HE|]. exists bg'. rewrite HC. cbn [extra]. rewrite Nat.add_0_r. reflexivity. }
  assert (HNC : forall q, jn rs ++ post <> ":"%char :: q).
  { intros q HQ. destruct rs as [|r0 rs].
    - cbn in HQ. subst post. apply ends_iff in HE. discriminate.
    - destruct (xb_hd r0 (match rs with [] => [] | _ => L ":" ++ jn rs end ++ post) (Forall_inv HF)) as (c & w & HD & Hc). rewrite jn_cons, <- app_assoc, HD in HQ. injection HQ as -> _. discriminate. }
  destruct Hs as [->| ->].
  - cbn [app List.length] in *. destruct (HREST j a bg nb Hne Hj) as (bg' & HI). exists bg'. rewrite HI. rewrite Nat.add_0_r. reflexivity.
  - change (List.length (L ":")) with 1 in Hj |- *. destruct j as [|j]; [lia|]. destruct (jn rs ++ post) as [|c w] eqn:EW.
    + destruct rs as [|r0 rs]; [|exfalso; destruct (xb_hd r0 (match rs with [] => [] | _ => L ":" ++ jn rs end ++ post) (Forall_inv HF)) as (c & w & HD & Hc); rewrite jn_cons, <- app_assoc, HD in EW; discriminate].
      cbn in EW. subst post. exists (List.length a). cbn [extra List.length joined]. change (L ":" ++ []) with ([] ++ L ":"). rewrite step6; [|apply nx_run; reflexivity|discriminate].
      cbn [step_result L list_ascii_of_string]. change (isspace ":") with false. change (ceq ":" ".") with false. change (ceq ":" ":") with true. cbv iota. cbn [app]. f_equal. f_equal. f_equal. f_equal. lia.
    + rewrite loop_stray; [|discriminate|exact HNC]. rewrite <- EW in *. destruct (HREST j (a ++ L ":") (List.length a) (S nb)) as (bg' & HI); [rewrite EW; discriminate|lia|]. exists bg'. rewrite HI. rewrite <- app_assoc. f_equal. f_equal. f_equal. f_equal. lia.
Qed.
Lemma abbr_four j a s rs b r bg nb : stray_ok s -> Forall xb rs -> xb b -> List.length s + List.length rs < j ->
  exists i, ipv6_loop j (a ++ s ++ cc rs ++ b ++ L "." ++ r) bg (List.length a) nb true = Ok (List.length (a ++ s ++ cc rs), i, nb + List.length s + S (List.length rs), true, true).
Proof.
  intros Hs HF HB Hj. assert (HX : xhd (cc rs ++ b ++ L "." ++ r)).
  { destruct rs as [|b2 bs]; [change (cc []) with (@nil ascii); cbn [app]; apply xb_hd; exact HB|rewrite cc_cons, <- app_assoc; apply xb_hd; apply Forall_inv in HF; exact HF]. }
  destruct Hs as [->| ->].
  - cbn [app List.length] in *. destruct (chain4 true rs j a b r bg nb HF Hj HB) as (i & HI). exists i. rewrite HI. f_equal. f_equal. f_equal. f_equal. lia.
  - change (List.length (L ":")) with 1 in Hj |- *. destruct j as [|j]; [lia|]. rewrite loop_stray.
    + destruct (chain4 true rs j (a ++ L ":") b r (List.length a) (S nb) HF ltac:(lia) HB) as (i & HI). exists i. rewrite HI. rewrite <- app_assoc. f_equal. f_equal. f_equal. f_equal. lia.
    + destruct HX as (c & q & HD & _). rewrite HD. discriminate.
    + destruct HX as (c & q & HD & Hc). rewrite HD. apply hd_not_colon. exact Hc.
Qed.

(** the checks behind the loop *)
Definition fin (want : bool) (t : text) (z : nat * nat * nat * bool * bool) : pres :=
  let '(begin, i, nb, had, has4) := z in
  let* (i, nb) :=
    if has4 then
      check (negb (Nat.eqb begin 0)) ;;
      let* (len, _) := parseIPv4 false (skipn begin t) in
      Ok (begin + len, nb - 1)
    else Ok (i, nb) in
  check (negb (Nat.ltb 8 nb)) ;;
  check (negb (had && negb (Nat.ltb nb 8))) ;;
  let* c1 := rd_back t i 1 in
  let* trail := if ceq c1 ":" then let* c2 := rd_back t i 2 in Ok (negb (ceq c2 ":")) else Ok false in
  check (negb trail) ;;
  ok_text want t i.
Definition trail_chk (want : bool) (t : text) (i : nat) : pres :=
  let* c1 := rd_back t i 1 in
  let* trail := if ceq c1 ":" then let* c2 := rd_back t i 2 in Ok (negb (ceq c2 ":")) else Ok false in
  check (negb trail) ;; ok_text want t i.
Lemma rd_back1 p x r : rd_back ((p ++ [x]) ++ r) (List.length (p ++ [x])) 1 = Ok x.
Proof.
  unfold rd_back. rewrite app_length. cbn [List.length]. destruct (Nat.ltb_spec (List.length p + 1) 1) as [H|_]; [lia|]. replace (List.length p + 1 - 1) with (List.length p) by lia. rewrite <- app_assoc. apply rd_app1. reflexivity.
Qed.
Lemma rd_back2 p x y r : rd_back ((p ++ [x; y]) ++ r) (List.length (p ++ [x; y])) 2 = Ok x.
Proof.
  unfold rd_back. rewrite app_length. cbn [List.length]. destruct (Nat.ltb_spec (List.length p + 2) 2) as [H|_]; [lia|]. replace (List.length p + 2 - 2) with (List.length p) by lia. rewrite <- app_assoc. apply rd_app1. reflexivity.
Qed.
Lemma trail_end want p x r : ceq x ":" = false -> trail_chk want ((p ++ [x]) ++ r) (List.length (p ++ [x])) = ok_text want ((p ++ [x]) ++ r) (List.length (p ++ [x])).
Proof. intros H. unfold trail_chk. rewrite rd_back1. cbn [bind]. rewrite H. reflexivity. Qed.
Lemma trail_colons want p r : trail_chk want ((p ++ L "::") ++ r) (List.length (p ++ L "::")) = ok_text want ((p ++ L "::") ++ r) (List.length (p ++ L "::")).
Proof.
  unfold trail_chk. change (L "::") with [":"%char; ":"%char]. rewrite rd_back2. replace (p ++ [":"%char; ":"%char]) with ((p ++ [":"%char]) ++ [":"%char]) by (rewrite <- app_assoc; reflexivity). rewrite rd_back1. reflexivity.
Qed.
Lemma trail_bad want t i : bad_tail t i -> trail_chk want t i = Bad 0.
Proof.
  intros (p & x & r & -> & Hx & ->). unfold trail_chk. rewrite rd_back2. replace (p ++ [x; ":"%char]) with ((p ++ [x]) ++ [":"%char]) by (rewrite <- app_assoc; reflexivity). rewrite rd_back1. cbn [bind]. change (ceq ":" ":") with true. cbv iota. cbn [bind]. rewrite Hx. reflexivity.
Qed.
Lemma fin_plain want t bg i nb had : fin want t (bg, i, nb, had, false) = check (negb (Nat.ltb 8 nb)) ;; check (negb (had && negb (Nat.ltb nb 8))) ;; trail_chk want t i.
Proof. reflexivity. Qed.
Lemma jn_last bs : Forall xb bs -> bs <> [] -> exists p x, jn bs = p ++ [x] /\ ceq x ":" = false.
Proof.
  induction bs as [|b bs IH]; intros HF Hn; [congruence|]. pose proof (Forall_inv HF) as Hb. apply Forall_inv_tail in HF. rewrite jn_cons. destruct bs as [|b2 bs].
  - rewrite app_nil_r. destruct Hb as [H1 H2]. destruct (split_last b) as (p & x & ->); [intros ->; cbn in H1; lia|]. apply Forall_app in H2. destruct H2 as [_ H2]. apply Forall_inv in H2. apply xd in H2. exists p, x. tauto.
  - destruct (IH HF ltac:(discriminate)) as (p & x & HE & Hx). exists (b ++ L ":" ++ p), x. split; [|exact Hx]. rewrite HE, <- !app_assoc. reflexivity.
Qed.
Lemma v4_last q r : ipv4_g q r -> exists p x, q = p ++ [x] /\ ceq x ":" = false.
Proof.
  intros (a & b & c & d & -> & _ & _ & _ & Hd). destruct Hd as (H1 & H2 & _). destruct (split_last d) as (p & x & ->); [intros ->; cbn in H1; lia|].
  apply Forall_app in H2. destruct H2 as [_ H2]. apply Forall_inv in H2. exists (a ++ L "." ++ b ++ L "." ++ c ++ L "." ++ p), x. split; [rewrite <- !app_assoc; reflexivity|].
  apply isdigit_iff in H2. apply ceq_false. intros ->. discriminate.
Qed.
Lemma v4_first_block q r : ipv4_g q r -> exists b w, q = b ++ L "." ++ w /\ xb b.
Proof.
  intros (a & b & c & d & -> & Ha & _). exists a. eexists. split; [reflexivity|]. destruct Ha as (H1 & H2 & _). split; [lia|]. eapply Forall_impl; [|exact H2]. intros x Hx. apply isxdigit_iff. 
  apply isdigit_iff in Hx. apply isxdigit_iff. revert Hx. clear. revert x. assert (HS : forall c, implb (isdigit c) (isxdigit c) = true) by sweep. intros x Hx. specialize (HS x). rewrite Hx in HS. exact HS.
Qed.
Lemma four_inv a u n v : parseIPv4 false (skipn (List.length a) (a ++ u)) = Ok (n, v) -> exists q post, u = q ++ post /\ n = List.length q /\ ipv4_g q post.
Proof. rewrite skipn_app_exact. intros H. apply (ipv4_exact false) in H. destruct H as (q & post & -> & -> & HG & _). eauto. Qed.
Lemma four_ok a q post : ipv4_g q post -> parseIPv4 false (skipn (List.length a) (a ++ q ++ post)) = Ok (List.length q, JNull).
Proof. intros H. rewrite skipn_app_exact. apply (ipv4_exact false). exists q, post. auto. Qed.

Definition taken6 (want : bool) (t : text) (n : nat) (v : json) : Prop :=
  exists pre post, t = pre ++ post /\ n = List.length pre /\ ipv6_g pre post /\ v = if want then JStr pre else JNull.
Lemma ok_take want pre post : ok_text want (pre ++ post) (List.length pre) = Ok (List.length pre, if want then JStr pre else JNull).
Proof. unfold ok_text, jsub. rewrite firstn_app_exact. reflexivity. Qed.
Lemma chk_in (b : bool) (x : pres) y : (if b then x else Bad 0) = Ok y -> b = true /\ x = Ok y.
Proof. destruct b; [auto|discriminate]. Qed.
(** an address ending in IPv4 *)
Lemma fin_four want a u i nb had n v : a <> [] -> fin want (a ++ u) (List.length a, i, S nb, had, true) = Ok (n, v) ->
  nb <= 8 /\ (had = true -> nb < 8) /\ exists q post, u = q ++ post /\ ipv4_g q post /\ n = List.length (a ++ q) /\ v = if want then JStr (a ++ q) else JNull.
Proof.
  intros Ha H. unfold fin in H. apply bind_ok in H. destruct H as ([i2 nb2] & H1 & H2). apply bind_ok in H1 || idtac.
  destruct (negb (Nat.eqb (List.length a) 0)) eqn:EN; [|discriminate]. apply bind_ok in H1. destruct H1 as ([len v0] & H4 & H1). injection H1 as <- <-.
  apply four_inv in H4. destruct H4 as (q & post & -> & -> & HG). apply chk_in in H2. destruct H2 as [C1 H2]. apply chk_in in H2. destruct H2 as [C2 H2].
  rewrite negb_true_iff in C1, C2. rewrite Nat.sub_0_r in *.
  apply Nat.ltb_ge in C1. split; [lia|]. split; [intros ->; cbn [andb] in C2; apply negb_false_iff in C2; apply Nat.ltb_lt in C2; lia|].
  exists q, post. split; [reflexivity|]. split; [exact HG|]. destruct (v4_last q post HG) as (p & x & -> & Hx).
  change (trail_chk want (a ++ (p ++ [x]) ++ post) (List.length a + List.length (p ++ [x])) = Ok (n, v)) in H2.
  assert (HE : a ++ (p ++ [x]) ++ post = ((a ++ p) ++ [x]) ++ post) by (rewrite <- !app_assoc; reflexivity).
  assert (HL : List.length a + List.length (p ++ [x]) = List.length ((a ++ p) ++ [x])) by (rewrite <- app_length, app_assoc; reflexivity).
  rewrite HE, HL, trail_end, ok_take in H2 by exact Hx. injection H2 as <- <-. rewrite app_assoc. auto.
Qed.
Lemma fin_four_ok want a q post i nb had : a <> [] -> nb <= 8 -> (had = true -> nb < 8) -> ipv4_g q post ->
  fin want (a ++ q ++ post) (List.length a, i, S nb, had, true) = Ok (List.length (a ++ q), if want then JStr (a ++ q) else JNull).
Proof.
  intros Ha H1 H2 HG. unfold fin. replace (negb (Nat.eqb (List.length a) 0)) with true by (symmetry; apply negb_true_iff, Nat.eqb_neq; destruct a; [congruence|discriminate]).
  rewrite four_ok by exact HG. cbn [bind]. replace (S nb - 1) with nb by lia. replace (Nat.ltb 8 nb) with false by (symmetry; apply Nat.ltb_ge; lia). cbn [negb].
  replace (had && negb (Nat.ltb nb 8))%bool with false.
  2: { symmetry. destruct had; [|reflexivity]. cbn [andb]. apply negb_false_iff, Nat.ltb_lt. auto. }
  cbn [negb]. destruct (v4_last q post HG) as (p & x & -> & Hx).
  change (trail_chk want (a ++ (p ++ [x]) ++ post) (List.length a + List.length (p ++ [x])) = Ok (List.length (a ++ p ++ [x]), if want then JStr (a ++ p ++ [x]) else JNull)).
  assert (HE : a ++ (p ++ [x]) ++ post = ((a ++ p) ++ [x]) ++ post) by (rewrite <- !app_assoc; reflexivity).
  assert (HL : List.length a + List.length (p ++ [x]) = List.length ((a ++ p) ++ [x])) by (rewrite <- app_length, app_assoc; reflexivity).
  rewrite HE, HL, trail_end, ok_take by exact Hx. rewrite app_assoc. reflexivity.
Qed.
(** the text of an abbreviated address does not end in a single colon *)
Lemma abbr_trail want ls s rs post : stray_ok s -> Forall xb rs ->
  let pre := (jn ls ++ L "::") ++ s ++ jn rs in trail_chk want (pre ++ post) (List.length pre) = Ok (List.length pre, if want then JStr pre else JNull).
Proof.
  intros Hs HF pre. rewrite <- ok_take with (post := post). destruct rs as [|r0 rs].
  - assert (HP : exists p, pre = p ++ L "::").
    { unfold pre. cbn [joined]. rewrite app_nil_r. destruct Hs as [->| ->]; [rewrite app_nil_r; eauto|]. exists (jn ls ++ L ":"). rewrite <- !app_assoc. reflexivity. }
    destruct HP as [p ->]. apply trail_colons.
  - destruct (jn_last (r0 :: rs) HF ltac:(discriminate)) as (p & x & HE & Hx). assert (HP : pre = ((jn ls ++ L "::") ++ s ++ p) ++ [x]) by (unfold pre; rewrite HE, <- !app_assoc; reflexivity).
    rewrite HP. apply trail_end. exact Hx.
Qed.
Lemma sound_abbr want ls u j bg z n v : Forall xb ls -> Nat.max 1 (List.length ls) + j = 9 ->
  match u with [] => z = (bg, List.length (jn ls ++ L "::"), Nat.max 1 (List.length ls), true, false)
  | _ => ipv6_loop j ((jn ls ++ L "::") ++ u) bg (List.length (jn ls ++ L "::")) (Nat.max 1 (List.length ls)) true = Ok z end ->
  fin want ((jn ls ++ L "::") ++ u) z = Ok (n, v) -> taken6 want ((jn ls ++ L "::") ++ u) n v.
Proof.
  intros HF Hj Hz H. set (a := jn ls ++ L "::") in *. set (m := Nat.max 1 (List.length ls)) in *.
  assert (HAE : abbr_end j a u m z).
  { destruct u as [|c u]; [|apply (abbr_sound j a (c :: u) bg); [discriminate|exact Hz]]. subst z. apply (ae_full _ _ _ _ _ [] [] [] bg); [left; reflexivity|constructor|reflexivity|left; reflexivity|].
    cbn [app joined extra List.length]. rewrite app_nil_r. f_equal. f_equal. f_equal. lia. }
  clear Hz. destruct HAE as [bg0 i0 Hz|s rs post bg0 Hs HR Hu He Hz|s rs u4 i0 Hs HR Hu Hz|bg0 i0 nb0 HB Hz]; subst z.
  - rewrite fin_plain in H. apply chk_in in H. destruct H as [H _]. rewrite Hj in H. discriminate.
  - rewrite fin_plain in H. apply chk_in in H. destruct H as [_ H]. apply chk_in in H. destruct H as [C2 H]. cbn [andb] in C2. rewrite negb_involutive in C2. apply Nat.ltb_lt in C2.
    subst u. pose proof (abbr_trail want ls s rs post Hs HR) as HT. cbn zeta in HT. fold a in HT.
    replace ((a ++ s ++ jn rs) ++ post) with (a ++ s ++ jn rs ++ post) in HT by (rewrite <- !app_assoc; reflexivity). rewrite HT in H. injection H as <- <-.
    exists (a ++ s ++ jn rs), post. split; [rewrite <- !app_assoc; reflexivity|]. split; [reflexivity|]. split; [|reflexivity].
    apply (v6_abbr _ _ ls s rs); [unfold a; rewrite <- !app_assoc; reflexivity|exact Hs|apply xbs_iff; exact HF|apply xbs_iff; exact HR|exact He|]. exact C2.
  - subst u. replace (m + List.length s + S (List.length rs)) with (S (m + List.length s + List.length rs)) in H by lia.
    replace (a ++ s ++ cc rs ++ u4) with ((a ++ s ++ cc rs) ++ u4) in H by (rewrite <- !app_assoc; reflexivity).
    apply fin_four in H; [|unfold a; destruct (jn ls); discriminate]. destruct H as (_ & C2 & q & post & -> & HG & -> & ->).
    exists ((a ++ s ++ cc rs) ++ q), post. split; [rewrite <- !app_assoc; reflexivity|]. split; [reflexivity|]. split; [|reflexivity].
    apply (v6_abbr4 _ _ ls s rs q); [unfold a; rewrite <- !app_assoc; reflexivity|exact Hs|apply xbs_iff; exact HF|apply xbs_iff; exact HR|exact HG|]. apply C2. reflexivity.
  - rewrite fin_plain in H. apply chk_in in H. destruct H as [_ H]. apply chk_in in H. destruct H as [_ H]. rewrite trail_bad in H by exact HB. discriminate.
Qed.

Lemma parse6_unfold want t : parseIPv6 want t =
  (check (negb (Nat.ltb (List.length t) 2)) ;;
  let* c0 := rd t 0 in
  let* first := if isxdigit c0 then Ok true else if ceq c0 ":" then let* c1 := rd t 1 in Ok (ceq c1 ":") else Ok false in
  check first ;; let* z := ipv6_loop 9 t 0 0 0 false in fin want t z).
Proof. reflexivity. Qed.

Lemma ipv6_sound want t n v : parseIPv6 want t = Ok (n, v) -> taken6 want t n v.
Proof.
  rewrite parse6_unfold. intros H. apply chk_in in H. destruct H as [HL H]. apply negb_true_iff, Nat.ltb_ge in HL. apply bind_ok in H. destruct H as (c0 & Hc0 & H).
  apply bind_ok in H. destruct H as (first & Hf & H). apply chk_in in H. destruct H as [-> H]. apply bind_ok in H. destruct H as (z & Hz & H).
  destruct t as [|x t]; [cbn in HL; lia|]. cbn in Hc0. injection Hc0 as <-. destruct (isxdigit x) eqn:EX.
  - assert (Hx : xhd (x :: t)) by (exists x, t; auto). 
    destruct (chain_sound false 9 [] (x :: t) 0 0 z Hx Hz) as [bg0 i0 E|bs post bg0 HF Hl Hu He E|bs u4 i0 HF Hl Hu E|bg0 i0 nb0 HB E|bs u' Hh HF Hl Hu E].
    + subst z. discriminate H.
    + subst z. rewrite fin_plain in H. cbn [app Nat.add] in H. apply chk_in in H. destruct H as [C1 H]. apply chk_in in H. destruct H as [_ H]. apply negb_true_iff, Nat.ltb_ge in C1. rewrite Hu in *.
      destruct (jn_last bs HF) as (p & y & HE & Hy); [intros ->; cbn in Hl; lia|]. rewrite HE in H. rewrite trail_end, <- HE, ok_take in H by exact Hy. injection H as <- <-.
      exists (jn bs), post. split; [reflexivity|]. split; [reflexivity|]. split; [|reflexivity]. apply (v6_full _ _ bs); [reflexivity|apply xbs_iff; exact HF|lia|exact He|exact HL].
    + subst z. cbn [app] in H. rewrite Hu in *. change (0 + S (List.length bs)) with (S (List.length bs)) in H. destruct bs as [|b bs].
      { exfalso. discriminate H. }
      apply fin_four in H; [|rewrite cc_cons; apply Forall_inv in HF; destruct b; [destruct HF as [HF _]; cbn in HF; lia|discriminate]].
      destruct H as (C1 & _ & q & post & -> & HG & -> & ->). exists (cc (b :: bs) ++ q), post. split; [rewrite <- app_assoc; reflexivity|]. split; [reflexivity|]. split; [|reflexivity].
      apply (v6_full4 _ _ (b :: bs) q); [reflexivity|apply xbs_iff; exact HF|cbn [List.length] in *; lia|exact HG].
    + subst z. rewrite fin_plain in H. cbn [app Nat.add] in H. apply chk_in in H. destruct H as [_ H]. apply chk_in in H. destruct H as [_ H]. rewrite trail_bad in H by exact HB. discriminate.
    + cbn [app Nat.add] in E. rewrite Hu in *. replace (jn bs ++ L "::" ++ u') with ((jn bs ++ L "::") ++ u') in * by (rewrite <- app_assoc; reflexivity).
      replace (List.length bs) with (Nat.max 1 (List.length bs)) in E by lia.
      destruct u' as [|y u']; destruct E as (bg & E).
      * apply (sound_abbr want bs [] (9 - Nat.max 1 (List.length bs)) bg z); [exact HF|lia|exact E|exact H].
      * apply (sound_abbr want bs (y :: u') (9 - Nat.max 1 (List.length bs)) bg z); [exact HF|lia|exact E|exact H].
  - destruct (ceq x ":") eqn:EC; [|discriminate]. apply ceq_true in EC. subst x. destruct t as [|y t]; [cbn in HL; lia|]. change (rd (":"%char :: y :: t) 1) with (Ok y) in Hf. cbn [bind] in Hf. injection Hf as Hy. apply ceq_true in Hy. subst y.
    pose proof (step6 8 [] [] (":"%char :: ":"%char :: t) 0 0 false (nx_run ":"%char _ eq_refl) ltac:(discriminate)) as HS. cbn [app List.length] in HS. rewrite HS in Hz. clear HS. unfold step_result in Hz.
    change (isspace ":") with false in Hz. change (ceq ":" ".") with false in Hz. change (ceq ":" ":") with true in Hz. cbv iota in Hz. cbn [app] in Hz.
    apply (sound_abbr want [] t 8 0 z); [constructor|reflexivity| |exact H]. destruct t as [|y t]; [injection Hz as <-; reflexivity|]. exact Hz.
Qed.

Lemma top_go want t c r : t = c :: r -> 2 <= List.length t -> (isxdigit c = true \/ exists q, t = L "::" ++ q) ->
  parseIPv6 want t = (let* z := ipv6_loop 9 t 0 0 0 false in fin want t z).
Proof.
  intros -> HL H. rewrite parse6_unfold. destruct (Nat.ltb_spec (List.length (c :: r)) 2) as [HH|_]; [lia|]. cbn [negb]. change (rd (c :: r) 0) with (Ok c). cbn [bind].
  destruct H as [H|(q & H)]; [rewrite H; reflexivity|]. injection H as -> ->. reflexivity.
Qed.
Lemma fin_full want pre post bg nb had : nb <= 8 -> (had = true -> nb < 8) -> trail_chk want (pre ++ post) (List.length pre) = Ok (List.length pre, if want then JStr pre else JNull) ->
  fin want (pre ++ post) (bg, List.length pre, nb, had, false) = Ok (List.length pre, if want then JStr pre else JNull).
Proof.
  intros H1 H2 H. rewrite fin_plain, H. replace (Nat.ltb 8 nb) with false by (symmetry; apply Nat.ltb_ge; lia). cbn [negb].
  replace (had && negb (Nat.ltb nb 8))%bool with false; [reflexivity|]. symmetry. destruct had; [|reflexivity]. cbn [andb]. apply negb_false_iff, Nat.ltb_lt. auto.
Qed.
(** the loop up to and over "::" *)
Lemma loop_abbr ls u : Forall xb ls -> List.length ls < 8 -> exists bg,
  ipv6_loop 9 ((jn ls ++ L "::") ++ u) 0 0 0 false =
  match u with [] => Ok (bg, List.length (jn ls ++ L "::"), Nat.max 1 (List.length ls), true, false)
  | _ => ipv6_loop (9 - Nat.max 1 (List.length ls)) ((jn ls ++ L "::") ++ u) bg (List.length (jn ls ++ L "::")) (Nat.max 1 (List.length ls)) true end.
Proof.
  intros HF HL. destruct ls as [|b ls].
  - exists 0. pose proof (step6 8 [] [] (":"%char :: ":"%char :: u) 0 0 false (nx_run ":"%char _ eq_refl) ltac:(discriminate)) as HS. cbn [app List.length] in HS. cbn [joined app].
    change (L "::" ++ u) with (":"%char :: ":"%char :: u). rewrite HS. unfold step_result. change (isspace ":") with false. change (ceq ":" ".") with false. change (ceq ":" ":") with true. cbv iota. destruct u; reflexivity.
  - destruct (chainA (b :: ls) 9 [] u 0 0 HF ltac:(cbn [List.length] in *; lia)) as (bg & HC). exists bg. cbn [app] in HC. rewrite <- app_assoc. rewrite <- app_assoc in HC. change (List.length (@nil ascii)) with 0 in HC. rewrite HC.
    replace (Nat.max 1 (List.length (b :: ls))) with (0 + List.length (b :: ls)) by (cbn [List.length]; lia). reflexivity.
Qed.
Lemma abbr_top want ls u : Forall xb ls -> parseIPv6 want ((jn ls ++ L "::") ++ u) = (let* z := ipv6_loop 9 ((jn ls ++ L "::") ++ u) 0 0 0 false in fin want ((jn ls ++ L "::") ++ u) z).
Proof.
  intros HF. assert (HL : 2 <= List.length ((jn ls ++ L "::") ++ u)) by (rewrite !app_length; cbn [L list_ascii_of_string List.length]; lia).
  destruct ls as [|b ls].
  - cbn [joined app] in *. eapply top_go; [reflexivity|exact HL|right; exists u; reflexivity].
  - destruct (xb_hd b (match ls with [] => [] | _ => L ":" ++ jn ls end ++ L "::" ++ u) (Forall_inv HF)) as (c & q & HD & Hc).
    assert (HE : (jn (b :: ls) ++ L "::") ++ u = c :: q) by (rewrite jn_cons, <- HD, <- !app_assoc; reflexivity). eapply top_go; [exact HE|exact HL|left; exact Hc].
Qed.
Lemma ipv6_complete want pre post : ipv6_g pre post -> parseIPv6 want (pre ++ post) = Ok (List.length pre, if want then JStr pre else JNull).
Proof.
  intros [bs HP HF Hl He HL|ls s rs HP Hs HF HR He Hc|bs q HP HF Hl HG|ls s rs q HP Hs HF HR HG Hc].
  - apply xbs_iff in HF. destruct bs as [|b bs]; [cbn in Hl; lia|].
    destruct (xb_hd b (match bs with [] => [] | _ => L ":" ++ jn bs end ++ post) (Forall_inv HF)) as (c & q & HD & Hc).
    assert (HE : pre ++ post = c :: q) by (rewrite HP, jn_cons, <- HD, <- !app_assoc; reflexivity). rewrite (top_go want _ c q HE HL (or_introl Hc)).
    destruct (chain1 false (b :: bs) 9 [] post 0 0 HF ltac:(lia) He) as (bg & HC). cbn [app Nat.add] in HC. change (List.length (@nil ascii)) with 0 in HC. rewrite <- HP in HC. rewrite HC. cbn [bind].
    apply fin_full; [lia|discriminate|]. destruct (jn_last (b :: bs) HF ltac:(discriminate)) as (p & x & HE2 & Hx). rewrite <- HP in HE2. rewrite HE2, trail_end, ok_take by exact Hx. reflexivity.
  - apply xbs_iff in HF, HR. set (a := jn ls ++ L "::"). assert (HP2 : pre = a ++ s ++ jn rs) by (rewrite HP; unfold a; rewrite <- !app_assoc; reflexivity).
    assert (HT : pre ++ post = a ++ s ++ jn rs ++ post) by (rewrite HP2, <- !app_assoc; reflexivity).
    pose proof (abbr_trail want ls s rs post Hs HR) as HTR. cbn zeta in HTR. fold a in HTR. rewrite <- HP2 in HTR.
    fold (extra rs post) in Hc. rewrite HT. unfold a at 1. rewrite abbr_top by exact HF. fold a. destruct (loop_abbr ls (s ++ jn rs ++ post) HF ltac:(lia)) as (bg & HLo). fold a in HLo. rewrite HLo. clear HLo.
    destruct (s ++ jn rs ++ post) as [|c w] eqn:EW.
    + apply app_eq_nil in EW. destruct EW as [-> EW]. apply app_eq_nil in EW. destruct EW as [EW ->]. cbn [bind]. rewrite app_nil_r in HT |- *. cbn [app] in HP2. rewrite EW, app_nil_r in HP2. rewrite <- HP2 in *.
      rewrite <- (app_nil_r pre) at 1. apply fin_full; [lia|intros _; lia|exact HTR].
    + destruct (abbr_full (9 - Nat.max 1 (List.length ls)) a s rs post bg (Nat.max 1 (List.length ls)) Hs HR He) as (bg' & HI); [rewrite EW; discriminate|lia|].
      rewrite EW in HI. rewrite HI. cbn [bind]. rewrite <- HP2, <- HT. apply fin_full; [lia|intros _; lia|exact HTR].
  - apply xbs_iff in HF. destruct bs as [|b bs]; [cbn in Hl; lia|].
    destruct (v4_first_block q post HG) as (o & w & HQ & HO).
    destruct (xb_hd b (L ":" ++ cc bs ++ q ++ post) (Forall_inv HF)) as (c & r & HD & Hc).
    assert (HE : pre ++ post = c :: r) by (rewrite HP, cc_cons, <- HD, <- !app_assoc; reflexivity).
    assert (HL : 2 <= List.length (pre ++ post)) by (pose proof (ipv4_len q post HG); rewrite HP, !app_length; lia).
    rewrite (top_go want _ c r HE HL (or_introl Hc)). 
    destruct (chain4 false (b :: bs) 9 [] o (w ++ post) 0 0 HF ltac:(lia) HO) as (i & HI). cbn [app Nat.add] in HI. change (List.length (@nil ascii)) with 0 in HI.
    assert (HT : pre ++ post = cc (b :: bs) ++ o ++ L "." ++ w ++ post) by (rewrite HP, HQ, <- !app_assoc; reflexivity). rewrite HT at 1. rewrite HI. cbn [bind].
    replace (pre ++ post) with (cc (b :: bs) ++ q ++ post) by (rewrite HP, <- app_assoc; reflexivity). rewrite HP. apply fin_four_ok; [rewrite cc_cons; apply Forall_inv in HF; destruct b; [destruct HF as [HF _]; cbn in HF; lia|discriminate]|lia|discriminate|exact HG].
  - apply xbs_iff in HF, HR. set (a := jn ls ++ L "::"). assert (HP2 : pre = (a ++ s ++ cc rs) ++ q) by (rewrite HP; unfold a; rewrite <- !app_assoc; reflexivity).
    destruct (v4_first_block q post HG) as (o & w & HQ & HO).
    assert (HT : pre ++ post = a ++ s ++ cc rs ++ o ++ L "." ++ w ++ post) by (rewrite HP2, HQ, <- !app_assoc; reflexivity).
    assert (HT2 : a ++ s ++ cc rs ++ o ++ L "." ++ w ++ post = (a ++ s ++ cc rs) ++ q ++ post) by (rewrite HQ, <- !app_assoc; reflexivity).
    rewrite HT. unfold a at 1. rewrite abbr_top by exact HF. fold a. destruct (loop_abbr ls (s ++ cc rs ++ o ++ L "." ++ w ++ post) HF ltac:(lia)) as (bg & HLo). fold a in HLo. rewrite HLo. clear HLo.
    destruct (abbr_four (9 - Nat.max 1 (List.length ls)) a s rs o (w ++ post) bg (Nat.max 1 (List.length ls)) Hs HR HO ltac:(lia)) as (i & HI).
    destruct (s ++ cc rs ++ o ++ L "." ++ w ++ post) as [|c r] eqn:EW.
    + exfalso. apply app_eq_nil in EW. destruct EW as [_ EW]. apply app_eq_nil in EW. destruct EW as [_ EW]. apply app_eq_nil in EW. destruct EW as [_ EW]. discriminate.
    + rewrite HI. cbn [bind]. rewrite HT2, HP2. replace (Nat.max 1 (List.length ls) + List.length s + S (List.length rs)) with (S (Nat.max 1 (List.length ls) + List.length s + List.length rs)) by lia.
      apply fin_four_ok; [unfold a; destruct (jn ls); discriminate|lia|intros _; lia|exact HG].
Qed.
Theorem ipv6_exact want t : takes_text (parseIPv6 want t) want t ipv6_g.
Proof.
  intros n v. split.
  - intros H. exact (ipv6_sound want t n v H).
  - intros (pre & post & -> & -> & HG & ->). apply ipv6_complete. exact HG.
Qed.
