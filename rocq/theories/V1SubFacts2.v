(** * V1SubFacts2: the loop of tokenized. *)
From Verif Require Import Base BaseFacts Parsers FieldSpec FieldFacts DateFacts Engine EngineFacts2 Pdag Samp LineSpec BuiltSpec LoadSpec AnnotSpec AnnotFacts SynFacts EncFacts V1 V1Spec V1Facts V1Add V1Match V1LoadSpec V1Load V1Total V1FieldSpec V1Field V1Top V1SubSpec V1SubFacts.
From Coq Require Import ZifyBool ZifyNat ZifyN.

Inductive sres := SUb (u : ub) | SNo | SYes (v : json) (u : text).

Fixpoint starts (sep r : text) : bool :=
  match sep, r with
  | [], _ => true
  | c :: sep', d :: r' => ceq c d && starts sep' r'
  | _ :: _, [] => false
  end.
Lemma starts_true sep r : starts sep r = true -> r = sep ++ skipn (List.length sep) r.
Proof.
  revert r. induction sep as [|c sep IH]; intros r H; [reflexivity|]. destruct r as [|d r]; [discriminate|]. cbn in H. apply andb_prop in H. destruct H as (H1 & H2).
  apply ceq_true in H1. subst d. cbn [List.length skipn app]. f_equal. apply IH. exact H2.
Qed.
Lemma starts_app sep w : starts sep (sep ++ w) = true.
Proof. induction sep as [|c sep IH]; [reflexivity|]. cbn [app starts]. rewrite ceq_refl. exact IH. Qed.
Lemma bufcmp_starts sep r : ~ In NUL sep -> bufcmp sep r = Ok (starts sep r).
Proof.
  revert r. induction sep as [|c sep IH]; intros r H; [reflexivity|]. destruct r as [|d r].
  - cbn [bufcmp starts]. destruct (ceq c NUL) eqn:E; [|reflexivity]. apply ceq_true in E. exfalso. apply H. left. exact E.
  - cbn. destruct (ceq c d); [|reflexivity]. cbn. apply IH. intros X. apply H. right. exact X.
Qed.

Fixpoint gloop (fuel : nat) (step : text -> sres) (sep t : text) (acc : list json) : res (nat * list json) :=
  match fuel with
  | O => Ub OutOfFuel
  | S fu =>
      match t with
      | [] => Ok (0, acc)
      | _ => match step t with
             | SUb u => Ub u
             | SNo => if is_nil acc then Bad 0 else Ok (List.length t + List.length sep, acc)
             | SYes v u => if starts sep u then gloop fu step sep (skipn (List.length sep) u) (acc ++ [v])
                           else Ok (List.length u, acc ++ [v])
             end
      end
  end.
Lemma gloop_S fu step sep t acc : t <> [] -> gloop (S fu) step sep t acc =
  match step t with
  | SUb u => Ub u
  | SNo => if is_nil acc then Bad 0 else Ok (List.length t + List.length sep, acc)
  | SYes v u => if starts sep u then gloop fu step sep (skipn (List.length sep) u) (acc ++ [v]) else Ok (List.length u, acc ++ [v])
  end.
Proof. destruct t; [congruence|reflexivity]. Qed.

Section G.
Variable step : text -> sres.
Variable sep : text.
Hypothesis Hsep : sep <> [].
Let It t v u := t <> [] /\ step t = SYes v u.
Let No t := t = [] \/ step t = SNo.

Lemma gloop_ok fuel : forall t acc n l, gloop fuel step sep t acc = Ok (n, l) ->
  t = [] /\ n = 0 /\ l = acc \/ (exists vs u, tokens It No sep t vs u /\ l = acc ++ vs /\ n = List.length u) \/
  t <> [] /\ No t /\ acc <> [] /\ n = List.length t + List.length sep /\ l = acc.
Proof.
  induction fuel as [|fu IH]; intros t acc n l H; [discriminate|]. destruct t as [|c t]; [injection H as <- <-; auto|].
  rewrite gloop_S in H by discriminate. set (T := c :: t) in *. assert (HT : T <> []) by discriminate. destruct (step T) as [ub| |v u] eqn:ES; [discriminate| |].
  - right. right. destruct acc; [discriminate|]. injection H as <- <-. repeat split; auto; try discriminate. right. exact ES.
  - destruct (starts sep u) eqn:EX.
    + pose proof (starts_true _ _ EX) as EU. set (w := skipn (List.length sep) u) in *. assert (HI : It T v (sep ++ w)) by (split; [exact HT|]; rewrite <- EU; exact ES).
      apply IH in H. destruct H as [(Hw & -> & ->)|[(vs & x & HK & -> & ->)|(Hw & HN & _ & -> & ->)]].
      * right. left. exists [v], []. split; [|auto]. apply tk_close. rewrite Hw, app_nil_r in HI. exact HI.
      * right. left. exists (v :: vs), x. split; [|split; [rewrite <- app_assoc; reflexivity|reflexivity]]. eapply tk_more; eauto.
      * right. left. exists [v], (sep ++ w). split; [apply tk_other; auto|]. split; [reflexivity|]. rewrite app_length. lia.
    + injection H as <- <-. right. left. exists [v], u. split; [|auto]. apply tk_last; [split; auto|]. intros w ->. rewrite starts_app in EX. discriminate.
Qed.

Hypothesis Hshort : forall t v u, It t v u -> List.length u <= List.length t.

Lemma gloop_tokens t vs u : tokens It No sep t vs u -> forall fuel acc, List.length t < fuel -> gloop fuel step sep t acc = Ok (List.length u, acc ++ vs).
Proof.
  assert (HL : 0 < List.length sep) by (destruct sep; [congruence|cbn; lia]).
  induction 1 as [t v u (Ht & HI) HS|t v (Ht & HI)|t v u Hu (Ht & HI) HN|t v u vs w (Ht & HI) HT IH]; intros [|fu] acc Hf; try lia; rewrite gloop_S by exact Ht; rewrite HI.
  - destruct (starts sep u) eqn:EX; [|reflexivity]. apply starts_true in EX. apply HS in EX. contradiction.
  - replace (starts sep sep) with true by (rewrite <- (app_nil_r sep) at 2; rewrite starts_app; reflexivity). rewrite skipn_all.
    destruct fu as [|fu]; [|reflexivity]. destruct t; [congruence|cbn in Hf; lia].
  - rewrite starts_app, skipn_lapp. assert (HX : List.length (sep ++ u) <= List.length t) by (apply (Hshort t v); split; auto). rewrite app_length in *.
    destruct fu as [|fu]; [destruct u; [congruence|cbn in *; lia]|]. rewrite gloop_S by exact Hu. destruct HN as [HN|HN]; [contradiction|]. rewrite HN.
    destruct acc; cbn [is_nil app]; f_equal; f_equal; lia.
  - rewrite starts_app, skipn_lapp. assert (HX : List.length (sep ++ u) <= List.length t) by (apply (Hshort t v); split; auto). rewrite app_length in HX.
    rewrite IH by lia. rewrite <- app_assoc. reflexivity.
Qed.

Lemma gloop_exact t n l : t <> [] -> gloop (S (List.length t)) step sep t [] = Ok (n, l) <-> exists u, tokens It No sep t l u /\ n = List.length u.
Proof.
  intros Ht. split.
  - intros H. apply gloop_ok in H. destruct H as [(H & _)|[(vs & u & H & -> & ->)|(_ & _ & H & _)]]; [contradiction| |congruence]. eauto.
  - intros (u & H & ->). rewrite (gloop_tokens _ _ _ H) by lia. reflexivity.
Qed.
Lemma gloop_bad t : t <> [] -> (exists k, gloop (S (List.length t)) step sep t [] = Bad k) <-> No t.
Proof.
  intros Ht. rewrite gloop_S by exact Ht. split.
  - intros (k' & H). right. destruct (step t) as [ub| |v u]; [discriminate|reflexivity|]. exfalso.
    destruct (starts sep u); [|discriminate]. clear -H. revert H. cbn [app]. remember [v] as acc eqn:EA. assert (HA : acc <> []) by (subst; discriminate). clear EA.
    revert HA. generalize (skipn (List.length sep) u) as x. generalize (List.length t) as fu. intros fu. revert acc. induction fu as [|fu IH]; intros acc x HA; [discriminate|].
    destruct x as [|c x]; [discriminate|]. rewrite gloop_S by discriminate. destruct (step (c :: x)); [discriminate| |].
    + destruct acc; [congruence|discriminate].
    + destruct (starts sep u0); [|discriminate]. apply IH. destruct acc; discriminate.
  - intros [H|H]; [contradiction|]. exists 0. rewrite H. reflexivity.
Qed.
End G.

Section S.
Variable e : env.
Hypothesis Hue : unescape e [] = [].

(** ** Content types *)
Definition dstep nf fd t := match run_field e nf (one_field fd) t fd 0 with Ub u => SUb u | Bad _ => SNo | Ok (n, v) => SYes v (skipn n t) end.
Definition dnorm nf c m js := match v1_normalize e (run_field e nf c m) (fst c) (snd c) m js with EOk (_, js) => Ok js | EUb u => Ub u end.

Lemma dloop nf fd sep : vf_name fd = L "default" -> vf_kind fd <> KIptables -> sep <> [] -> ~ In NUL sep -> forall fuel t acc, ~ In NUL t ->
  tok_loop fuel (dnorm nf (one_field fd)) sep (L "tail") true t [] acc = gloop fuel (dstep nf fd) sep t acc.
Proof.
  intros HF HK HE HS. induction fuel as [|fu IH]; intros t acc HN; [reflexivity|]. destruct t as [|c t]; [reflexivity|]. set (T := c :: t) in *.
  assert (HT : T <> []) by discriminate. rewrite gloop_S by exact HT. cbn [tok_loop]. fold T. change (match T with [] => Ok (0, acc) | _ :: _ => ?x end) with x.
  unfold dstep. unfold dnorm at 1. rewrite norm_content by auto. destruct (run_field e nf (one_field fd) T fd 0) as [[n v]|k|u]; [| |reflexivity].
  - cbn [bind]. unfold content_js. destruct (Nat.ltb_spec n (List.length T)) as [Hn|Hn].
    + change (obj_get (obj_add (obj_add [] (L "tail") (JStr (skipn n T))) (L "default") v) (L "default")) with (Some v). cbn iota.
      change (obj_get (obj_add (obj_add [] (L "tail") (JStr (skipn n T))) (L "default") v) (L "tail")) with (Some (JStr (skipn n T))). cbn iota. cbn [jstr_len].
      destruct (List.length (skipn n T)) as [|k] eqn:EL; [rewrite skipn_length in EL; lia|]. cbn iota. rewrite bufcmp_starts by exact HS. cbn [bind].
      destruct (starts sep (skipn n T)) eqn:ES; [|rewrite <- EL; reflexivity]. rewrite <- IH; [reflexivity|]. apply skipn_clean. apply skipn_clean. exact HN.
    + change (obj_get (obj_add [] (L "default") v) (L "default")) with (Some v). cbn iota. change (obj_get (obj_add [] (L "default") v) (L "tail")) with (@None json). cbn iota.
      rewrite skipn_all2 by exact Hn. destruct sep as [|d sep']; [congruence|reflexivity].
  - cbn [bind]. destruct acc; reflexivity.
Qed.

Lemma item_dstep nf fd t v u : item e nf fd t v u <-> t <> [] /\ dstep nf fd t = SYes v u.
Proof.
  unfold item, dstep. split.
  - intros (H & n & -> & ->). auto.
  - intros (H & E). split; [exact H|]. destruct (run_field e nf (one_field fd) t fd 0) as [[n w]|k|x]; try discriminate. injection E as <- <-. eauto.
Qed.
Lemma no_item_dstep nf fd t : no_item e nf fd t <-> t = [] \/ dstep nf fd t = SNo.
Proof.
  unfold no_item, dstep. split; intros [H|H]; auto; right.
  - destruct H as (k & ->). reflexivity.
  - destruct (run_field e nf (one_field fd) t fd 0) as [[n w]|k|x]; try discriminate. eauto.
Qed.
Lemma tokens_iff (i i' : text -> json -> text -> Prop) (n n' : text -> Prop) sep t vs u : (forall t v u, i t v u <-> i' t v u) -> (forall t, n t <-> n' t) ->
  tokens i n sep t vs u <-> tokens i' n' sep t vs u.
Proof.
  assert (G : forall (i i' : text -> json -> text -> Prop) (n n' : text -> Prop) t vs u, (forall t v u, i t v u <-> i' t v u) -> (forall t, n t <-> n' t) -> tokens i n sep t vs u -> tokens i' n' sep t vs u).
  { clear. intros i i' n n' t vs u Hi Hn H. induction H.
    - apply tk_last; [apply Hi|]; auto.
    - apply tk_close. apply Hi. auto.
    - apply tk_other; [auto|apply Hi; auto|apply Hn; auto].
    - eapply tk_more; [apply Hi; eauto|auto]. }
  intros Hi Hn. split; apply G; auto; intros; symmetry; auto.
Qed.

(** ** The constructor *)
Lemma cons_tok_ok fu self f sep0 sep1 sep d fd : vf_raw f = Some (sep0 ++ ":"%char :: d) -> arg sep0 -> clean d -> unesc e sep0 sep1 -> unesc e sep1 sep ->
  content e d fd -> vf_kind fd <> KRecursive -> vf_kind fd <> KDescent -> cons_tok e fu self f = EOk (STok sep (L "tail") true (Some (one_field fd))).
Proof.
  intros HR (HS & HSN) HD (E1 & N1) (E2 & N2) HC K1 K2. unfold cons_tok. rewrite HR. unfold pargs. rewrite drop_nul_id.
  2:{ intros X. apply in_app_or in X. destruct X as [X|[X|X]]; [contradiction|discriminate|contradiction]. }
  rewrite psplit_more by exact HS. cbn [psplit]. unfold unesc_arg. rewrite E1, drop_nul_id by exact N1. rewrite E2.
  pose proof (vfieldDescr_ok e _ _ [] HC) as (HV & _). rewrite app_nil_r in HV. change (L "%") with ["%"%char]. rewrite HV. rewrite (gen_ctx_ok e Hue _ _ HC). cbn [ebind].
  destruct (vf_kind fd); try reflexivity; congruence.
Qed.
Lemma run_field_S nf self msg f offs : is_sub (vf_kind f) = true -> run_field e (S nf) self msg f offs =
  match vsub_of e (S nf) self f with
  | EUb u => Ub u
  | EOk s => let t := skipn offs msg in
      let* (n, v) := run_sub e (dnorm nf) (vkind_eqb (vf_kind f) KTokenized) s t in
      let p := (Z.of_nat offs + n)%Z in
      Ok (if Z.ltb p 0 then List.length msg else Z.to_nat p, match v with Some j => j | None => JStr (cstr (firstn (Z.to_nat n) t)) end)
  end.
Proof. intros H. cbn [run_field]. rewrite H. reflexivity. Qed.
Lemma skipn_before {A} (before t : list A) : skipn (List.length before) (before ++ t) = t.
Proof. apply skipn_lapp. Qed.

Lemma run_tok nf self f sep rem dflt c before t : vf_kind f = KTokenized -> cons_tok e (S nf) self f = EOk (STok sep rem dflt (Some c)) ->
  run_field e (S nf) self (before ++ t) f (List.length before) =
  let* (k, l) := tok_loop (S (List.length t)) (dnorm nf c) sep rem dflt t [] [] in
  Ok (if Z.ltb (Z.of_nat (List.length before + List.length t) - Z.of_nat k) 0 then List.length (before ++ t) else Z.to_nat (Z.of_nat (List.length before + List.length t) - Z.of_nat k), JArr l).
Proof.
  intros HK HC. rewrite run_field_S by (rewrite HK; reflexivity). unfold vsub_of. rewrite HK, HC. cbn iota. rewrite skipn_before. cbv zeta. cbn [run_sub vkind_eqb].
  destruct (tok_loop _ _ _ _ _ _ _ _) as [[k l]|k|u]; [|reflexivity|reflexivity]. cbn [bind].
  replace (Z.of_nat (List.length before) + (Z.of_nat (List.length t) - Z.of_nat k))%Z with (Z.of_nat (List.length before + List.length t) - Z.of_nat k)%Z by lia. reflexivity.
Qed.

Theorem tokenized_exact nf self f sep0 sep1 sep d fd before t : vf_kind f = KTokenized -> vf_raw f = Some (sep0 ++ ":"%char :: d) -> arg sep0 -> clean d ->
  unesc e sep0 sep1 -> unesc e sep1 sep -> sep <> [] -> content e d fd -> ~ In (vf_kind fd) [KRecursive; KDescent; KIptables] -> clean t -> t <> [] -> forall o v,
  run_field e (S nf) self (before ++ t) f (List.length before) = Ok (o, v) <->
  exists vs u, tokens (item e nf fd) (no_item e nf fd) sep t vs u /\ v = JArr vs /\ o + List.length u = List.length before + List.length t.
Proof.
  intros HK HR HS HD H1 H2 HE HC HF HT Ht o v.
  assert (HF' : vf_kind fd <> KRecursive /\ vf_kind fd <> KDescent /\ vf_kind fd <> KIptables) by (repeat split; intros X; apply HF; rewrite X; cbn; auto).
  destruct HF' as (F1 & F2 & F3).
  rewrite (run_tok nf self f sep (L "tail") true (one_field fd)) by (auto; eapply cons_tok_ok; eauto).
  rewrite dloop; auto; [|eapply content_name; eauto|apply H2].
  assert (SH : forall x y z, x <> [] /\ dstep nf fd x = SYes y z -> List.length z <= List.length x).
  { intros x y z (_ & X). unfold dstep in X. destruct (run_field _ _ _ _ _ _) as [[n w]|k|u]; try discriminate. injection X as _ <-. rewrite skipn_length. lia. }
  assert (TL : forall x vs u, tokens (fun t v u => t <> [] /\ dstep nf fd t = SYes v u) (fun t => t = [] \/ dstep nf fd t = SNo) sep x vs u -> List.length u <= List.length x).
  { intros x vs u H. induction H as [x w u HI|x w HI|x w u Hu HI|x w u vs y HI HX IH]; [apply SH in HI; lia|cbn; lia|apply SH in HI; lia|apply SH in HI; rewrite app_length in HI; lia]. }
  split.
  - intros H. apply bind_ok in H. destruct H as ([k l] & HG & E). apply gloop_exact in HG; auto. destruct HG as (u & HG & ->).
    pose proof (TL _ _ _ HG) as HL. exists l, u. split; [|].
    + apply (tokens_iff _ _ _ _ sep t l u (item_dstep nf fd) (no_item_dstep nf fd)). exact HG.
    + destruct (Z.ltb_spec (Z.of_nat (List.length before + List.length t) - Z.of_nat (List.length u)) 0); [lia|]. injection E as <- <-. split; [reflexivity|lia].
  - intros (vs & u & HG & -> & EO). apply (tokens_iff _ _ _ _ sep t vs u (item_dstep nf fd) (no_item_dstep nf fd)) in HG. pose proof (TL _ _ _ HG) as HL.
    assert (HG' : gloop (S (List.length t)) (dstep nf fd) sep t [] = Ok (List.length u, vs)) by (apply gloop_exact; eauto).
    rewrite HG'. cbn [bind]. destruct (Z.ltb_spec (Z.of_nat (List.length before + List.length t) - Z.of_nat (List.length u)) 0); [lia|]. do 2 f_equal. lia.
Qed.
End S.
