(** * V1SubFacts3: recursive, descent; tokenized with objects. *)
From Verif Require Import Base BaseFacts Parsers FieldSpec FieldFacts DateFacts Engine EngineFacts2 Pdag Samp LineSpec BuiltSpec LoadSpec AnnotSpec AnnotFacts SynFacts EncFacts V1 V1Spec V1Facts V1Add V1Match V1LoadSpec V1Load V1Total V1FieldSpec V1Field V1Top V1SubSpec V1SubFacts V1SubFacts2.
From Coq Require Import ZifyBool ZifyNat ZifyN.

Section S.
Variable e : env.
Hypothesis Hue : unescape e [] = [].
Variable qs : list prs -> list prs.

(** ** Loading depends on the tree, the prefix and the annotations only *)
Definition like (a b : lctx) : Prop := l_tree a = l_tree b /\ c_prefix (l_ctx a) = c_prefix (l_ctx b) /\ c_annots (l_ctx a) = c_annots (l_ctx b).
Definition like_r (a b : er lctx) : Prop := match a, b with EOk x, EOk y => like x y | EUb u, EUb w => u = w | _, _ => False end.

Lemma like_rule a b u : like a b -> like_r (v1_rule e a u) (v1_rule e b u).
Proof.
  intros (H1 & H2 & H3). unfold v1_rule. destruct (processTags u None None) as [r|w]; cbn [ebind]; [|reflexivity]. destruct r as [(tags & [|c s])|]; try (repeat split; assumption).
  rewrite H1, H2. destruct (vaddSamp _ _ _ _) as [t|w]; cbn [ebind]; [|reflexivity]. repeat split; assumption.
Qed.
Lemma like_annotate n a b u : like a b -> like_r (v1_annotate n a u) (v1_annotate n b u).
Proof.
  intros (H1 & H2 & H3). unfold v1_annotate. destruct (skipn _ _) as [|c v]; [repeat split; assumption|]. destruct (firstn _ u); [repeat split; assumption|].
  destruct (negb (ceq c ":")); [repeat split; assumption|]. destruct (v1_annot_loop n v []) as [[ops|]|w]; cbn [ebind]; [| |reflexivity]; repeat split; cbn; try assumption. rewrite H3. reflexivity.
Qed.
Lemma like_samp n a b l : like a b -> like_r (v1_samp e n a l) (v1_samp e n b l).
Proof.
  intros H. assert (H' := H). destruct H' as (H1 & H2 & H3). unfold v1_samp. destruct (getLineType l) as [(ty & u)|]; [|exact H].
  destruct (text_eqb ty (L "prefix")); [repeat split; cbn; assumption|]. destruct (text_eqb ty (L "extendprefix")).
  - rewrite H2. destruct (c_prefix (l_ctx b)); [|reflexivity]. repeat split; cbn; auto.
  - destruct (text_eqb ty (L "rule")); [apply like_rule; exact H|]. destruct (text_eqb ty (L "annotate")); [apply like_annotate|]; exact H.
Qed.
Lemma like_lines n fuel : forall a b inp, like a b -> like_r (v1_lines e n fuel a inp) (v1_lines e n fuel b inp).
Proof.
  induction fuel as [|fu IH]; intros a b inp H; [reflexivity|]. cbn [v1_lines]. destruct (v1_read _ _ _ _ _) as [line inp' eof| |inp'|].
  - pose proof (like_samp n a b line H) as HS. destruct (v1_samp e n a line), (v1_samp e n b line); cbn [like_r ebind] in *; try contradiction; [|exact HS]. destruct eof; [exact HS|]. apply IH. exact HS.
  - exact H.
  - apply IH. exact H.
  - reflexivity.
Qed.

Lemma ver_samp n a b l : v1_samp e n a l = EOk b -> c_version (l_ctx b) = c_version (l_ctx a).
Proof.
  unfold v1_samp. destruct (getLineType l) as [(ty & u)|]; [|congruence].
  destruct (text_eqb ty (L "prefix")); [intros [= <-]; reflexivity|]. destruct (text_eqb ty (L "extendprefix")).
  - destruct (c_prefix (l_ctx a)); [|discriminate]. intros [= <-]; reflexivity.
  - destruct (text_eqb ty (L "rule")).
    + unfold v1_rule. destruct (processTags u None None) as [r|w]; cbn [ebind]; [|discriminate]. destruct r as [(tags & [|c s])|]; try congruence.
      destruct (vaddSamp _ _ _ _) as [t|w]; cbn [ebind]; [|discriminate]. intros [= <-]. reflexivity.
    + destruct (text_eqb ty (L "annotate")); [|congruence]. unfold v1_annotate. destruct (skipn _ _) as [|c v]; [congruence|]. destruct (firstn _ u); [congruence|].
      destruct (negb (ceq c ":")); [congruence|]. destruct (v1_annot_loop n v []) as [[ops|]|w]; cbn [ebind]; intros [= <-]; reflexivity.
Qed.
Lemma ver_lines n fuel : forall a b inp, v1_lines e n fuel a inp = EOk b -> c_version (l_ctx b) = c_version (l_ctx a).
Proof.
  induction fuel as [|fu IH]; intros a b inp H; [discriminate|]. cbn [v1_lines] in H. destruct (v1_read _ _ _ _ _) as [line inp' eof| |inp'|]; [|congruence|eauto|discriminate].
  destruct (v1_samp e n a line) as [a'|u] eqn:ES; [|discriminate]. cbn [ebind] in H. apply ver_samp in ES. rewrite <- ES. destruct eof; [injection H as ->; reflexivity|eauto].
Qed.

Lemma load_lines nf o file lc w : l_loadFile e qs nf (l_init o) file = EOk (lc, true) -> files e file = Some w -> w <> [] -> (forall r, w <> version2 ++ r) ->
  c_version (l_ctx lc) = 1%N /\ exists lc', v1_lines e nf (S (List.length w)) v1_child w = EOk lc' /\ vctx_of lc' = vctx_of lc.
Proof.
  intros H HF HW HV. unfold l_loadFile in H. rewrite HF in H. destruct w as [|c w]; [congruence|]. set (W := c :: w) in *.
  assert (HI : is_v1 W = true).
  { unfold is_v1. destruct (text_eqb (firstn 10 W) version2) eqn:E; [|reflexivity]. exfalso. apply text_eqb_true in E. apply (HV (skipn 10 W)). rewrite <- E. symmetry. apply firstn_skipn. }
  rewrite HI in H. change (N.eqb (c_version (l_ctx (l_init o))) 0 || N.eqb (c_version (l_ctx (l_init o))) 1)%bool with true in H. cbn [andb] in H. cbn iota in H.
  destruct (v1_lines e nf (S (List.length W)) {| l_ctx := set_version (l_ctx (l_init o)) 1; l_tree := vnew |} W) as [lc1|u] eqn:E1; [|discriminate]. cbn [ebind] in H. injection H as ->. split.
  - apply ver_lines in E1. exact E1.
  - assert (HL : like {| l_ctx := set_version (l_ctx (l_init o)) 1; l_tree := vnew |} v1_child) by (repeat split).
    pose proof (like_lines nf (S (List.length W)) _ _ W HL) as HR. rewrite E1 in HR. destruct (v1_lines e nf (S (List.length W)) v1_child W) as [lc2|u]; [|contradiction].
    exists lc2. split; [reflexivity|]. destruct HR as (R1 & R2 & R3). unfold vctx_of. rewrite R1, R3. reflexivity.
Qed.

Lemma rules_version nf lc f rem lc2 : c_version (l_ctx lc) = 1%N -> rules_of e qs nf lc f rem lc2 -> c_version (l_ctx lc2) = 1%N.
Proof.
  intros HV [r HK HR|a file o more r lc' HK HR Ha Hm Hu (w & HF & HW & HX) HL]; [exact HV|]. eapply load_lines; eauto.
Qed.
Lemma rules_ctx nf lc f rem lc2 : rules_of e qs nf lc f rem lc2 -> cons_rec e nf (vctx_of lc) f = EOk (SRec rem (vctx_of lc2)).
Proof.
  intros [r HK HR|a file o more r lc' HK HR (Ha1 & Ha2) Hm (Hu1 & Hu2) (w & HF & HW & HX) HL]; unfold cons_rec; rewrite HK.
  - destruct HR as [(-> & ->)|(-> & HN)]; [reflexivity|]. cbn [pargs psplit]. rewrite drop_nul_id by exact HN. reflexivity.
  - destruct (load_lines _ _ _ _ _ HL HF HW HX) as (_ & lc1 & E1 & E2). rewrite HR. unfold pargs.
    assert (HP : psplit 2 (drop_nul (a ++ match more with None => [] | Some r => ":"%char :: r end)) = a :: match more with None => [] | Some r => [r] end /\ r = match more with None => L "tail" | Some r => r end).
    { destruct Hm as [(-> & ->)|(-> & HN)].
      - rewrite app_nil_r, drop_nul_id by exact Ha2. rewrite psplit_end by exact Ha1. auto.
      - rewrite drop_nul_id; [rewrite psplit_more by exact Ha1; auto|]. intros X. apply in_app_or in X. destruct X as [X|[X|X]]; [contradiction|discriminate|contradiction]. }
    destruct HP as (-> & ->). unfold unesc_arg. rewrite Hu1, drop_nul_id by exact Hu2. rewrite HF, E1. cbn [ebind]. rewrite E2. destruct more; reflexivity.
Qed.

Lemma dnorm_ok nf lc t js : c_version (l_ctx lc) = 1%N -> normalized e nf lc t js <-> dnorm e nf (vctx_of lc) t [] = Ok js.
Proof.
  intros HV. unfold normalized, l_normalize, dnorm. rewrite HV. change (N.eqb 1 1) with true. cbn iota. unfold vctx_of at 2 3. cbn [fst snd].
  destruct (v1_normalize _ _ _ _ _ _) as [(b & j)|u]; cbn [ebind].
  - split; [intros (ok & lc' & [= _ -> _]); reflexivity|intros [= ->]; eauto].
  - split; [intros (ok & lc' & H); discriminate|discriminate].
Qed.
Lemma dnorm_ub nf lc t u : c_version (l_ctx lc) = 1%N -> l_normalize e nf lc t [] = EUb u <-> dnorm e nf (vctx_of lc) t [] = Ub u.
Proof.
  intros HV. unfold l_normalize, dnorm. rewrite HV. change (N.eqb 1 1) with true. cbn iota. unfold vctx_of at 2 3. cbn [fst snd].
  destruct (v1_normalize _ _ _ _ _ _) as [(b & j)|w]; cbn [ebind]; split; congruence.
Qed.

(** ** recursive, descent *)
Lemma run_rec nf lc f rem lc2 before t : c_version (l_ctx lc) = 1%N -> rules_of e qs (S nf) lc f rem lc2 ->
  run_field e (S nf) (vctx_of lc) (before ++ t) f (List.length before) =
  let* (n, v) := run_sub e (dnorm e nf) false (SRec rem (vctx_of lc2)) t in
  let p := (Z.of_nat (List.length before) + n)%Z in
  Ok (if Z.ltb p 0 then List.length (before ++ t) else Z.to_nat p, match v with Some j => j | None => JStr (cstr (firstn (Z.to_nat n) t)) end).
Proof.
  intros HV HR. assert (HK : is_sub (vf_kind f) = true /\ vkind_eqb (vf_kind f) KTokenized = false /\ vsub_of e (S nf) (vctx_of lc) f = EOk (SRec rem (vctx_of lc2))).
  { rewrite <- (rules_ctx _ _ _ _ _ HR). unfold vsub_of. destruct HR as [r HK HR|a file o more r lc' HK HR (Ha1 & Ha2) Hm (Hu1 & Hu2) (w & HF & HW & HX) HL]; rewrite HK; auto. }
  destruct HK as (H1 & H2 & H3). rewrite run_field_S by exact H1. rewrite H2, H3. rewrite skipn_before. reflexivity.
Qed.

Theorem recursive_ok nf lc f rem lc2 before t js v u : c_version (l_ctx lc) = 1%N -> rules_of e qs (S nf) lc f rem lc2 ->
  normalized e nf lc2 t js -> ~ unmatched js -> rest_object rem js v u -> List.length u <= List.length before + List.length t ->
  run_field e (S nf) (vctx_of lc) (before ++ t) f (List.length before) = Ok (List.length before + List.length t - List.length u, v).
Proof.
  intros HV HR HN HU HO HL. rewrite (run_rec nf lc f rem lc2) by auto. apply dnorm_ok in HN; [|eapply rules_version; eauto]. cbn [run_sub]. rewrite HN. cbn [bind].
  destruct (obj_get js (L "unparsed-data")) as [x|] eqn:EX; [exfalso; apply HU; exists x; exact EX|].
  assert (G : match obj_get js rem with Some w => Ok ((Z.of_nat (List.length t) - Z.of_nat (jstr_len w))%Z, Some (JObj (obj_del js rem))) | None => Ok (Z.of_nat (List.length t), Some (JObj js)) end
              = Ok ((Z.of_nat (List.length t) - Z.of_nat (List.length u))%Z, Some v)).
  { destruct HO as [E|r E|w E Hw]; rewrite E; try reflexivity. - cbn. rewrite Z.sub_0_r. reflexivity. - destruct w; try reflexivity. exfalso. eapply Hw. reflexivity. }
  rewrite G. cbn [bind]. cbv zeta. destruct (Z.ltb_spec (Z.of_nat (List.length before) + (Z.of_nat (List.length t) - Z.of_nat (List.length u))) 0); [lia|]. do 2 f_equal. lia.
Qed.
Theorem recursive_none nf lc f rem lc2 before t js : c_version (l_ctx lc) = 1%N -> rules_of e qs (S nf) lc f rem lc2 ->
  normalized e nf lc2 t js -> unmatched js ->
  run_field e (S nf) (vctx_of lc) (before ++ t) f (List.length before) = Ok (List.length before, JStr []).
Proof.
  intros HV HR HN (x & HX). rewrite (run_rec nf lc f rem lc2) by auto. apply dnorm_ok in HN; [|eapply rules_version; eauto]. cbn [run_sub]. rewrite HN. cbn [bind]. rewrite HX. cbn [bind]. cbv zeta.
  destruct (Z.ltb_spec (Z.of_nat (List.length before) + 0) 0); [lia|]. cbn [Z.to_nat firstn]. do 2 f_equal. lia.
Qed.
Theorem recursive_ub nf lc f rem lc2 before t w : c_version (l_ctx lc) = 1%N -> rules_of e qs (S nf) lc f rem lc2 ->
  l_normalize e nf lc2 t [] = EUb w ->
  run_field e (S nf) (vctx_of lc) (before ++ t) f (List.length before) = Ub w.
Proof.
  intros HV HR HN. rewrite (run_rec nf lc f rem lc2) by auto. apply dnorm_ub in HN; [|eapply rules_version; eauto]. cbn [run_sub]. rewrite HN. reflexivity.
Qed.

(** ** tokenized with objects *)
Definition ostep nf c rem t :=
  match dnorm e nf c t [] with
  | Ub u => SUb u
  | Bad _ => SNo
  | Ok js => match obj_get js (L "unparsed-data") with
             | Some _ => SNo
             | None => match obj_get js rem with
                       | Some (JStr (d :: r)) => SYes (JObj (obj_del js rem)) (d :: r)
                       | _ => SYes (JObj js) []
                       end
             end
  end.
Lemma oloop nf c rem sep : sep <> [] -> ~ In NUL sep -> forall fuel t acc js,
  tok_loop fuel (dnorm e nf c) sep rem false t js acc = gloop fuel (ostep nf c rem) sep t acc.
Proof.
  intros HE HS. induction fuel as [|fu IH]; intros t acc js; [reflexivity|]. destruct t as [|d t]; [reflexivity|]. set (T := d :: t) in *.
  assert (HT : T <> []) by discriminate. rewrite gloop_S by exact HT. cbn [tok_loop]. fold T. change (match T with [] => Ok (0, acc) | _ :: _ => ?x end) with x.
  unfold ostep. destruct (dnorm e nf c T []) as [j|k|u] eqn:ED; [| |reflexivity].
  2:{ exfalso. unfold dnorm in ED. destruct (v1_normalize _ _ _ _ _ _) as [(b & j)|w]; discriminate. }
  cbn [bind]. destruct (obj_get j (L "unparsed-data")) as [x|]; [destruct acc; reflexivity|].
  assert (N0 : starts sep [] = false) by (destruct sep; [congruence|reflexivity]).
  destruct (obj_get j rem) as [[| | | |s| |]|]; try (rewrite N0; reflexivity). destruct s as [|x s]; [rewrite N0; reflexivity|].
  cbn [jstr_len List.length]. rewrite bufcmp_starts by exact HS. cbn [bind]. destruct (starts sep (x :: s)); [apply IH|reflexivity].
Qed.
Lemma object_ostep nf lc rem t v u : c_version (l_ctx lc) = 1%N -> object e nf lc rem t v u <-> t <> [] /\ ostep nf (vctx_of lc) rem t = SYes v u.
Proof.
  intros HV. unfold object, ostep. split.
  - intros (H & js & HN & HU & HO). split; [exact H|]. apply dnorm_ok in HN; [|exact HV]. rewrite HN. destruct (obj_get js (L "unparsed-data")) as [x|] eqn:EX; [exfalso; apply HU; exists x; exact EX|].
    destruct HO as [r Hr E|Hr]; [rewrite E; destruct r; [congruence|reflexivity]|].
    destruct (obj_get js rem) as [[| | | |s| |]|]; try reflexivity. destruct s as [|x s]; [reflexivity|]. exfalso. eapply Hr; [|reflexivity]. discriminate.
  - intros (H & E). split; [exact H|]. destruct (dnorm e nf (vctx_of lc) t []) as [js|k|x] eqn:ED; try discriminate. exists js. split; [apply dnorm_ok; auto|].
    destruct (obj_get js (L "unparsed-data")) as [x|] eqn:EX; [discriminate|]. split; [intros (x & HX); unfold unmatched in *; congruence|].
    destruct (obj_get js rem) as [[| | | |s| |]|] eqn:EO; try (injection E as <- <-; apply lo_all; intros r Hr; rewrite EO; congruence).
    destruct s as [|y s]; injection E as <- <-; [apply lo_all; intros r Hr; rewrite EO; congruence|apply lo_some; [discriminate|exact EO]].
Qed.
Lemma no_object_ostep nf lc rem t : c_version (l_ctx lc) = 1%N -> no_object e nf lc t <-> t = [] \/ ostep nf (vctx_of lc) rem t = SNo.
Proof.
  intros HV. unfold no_object, ostep, unmatched. split; intros [H|H]; auto; right.
  - destruct H as (js & HN & (x & HU)). apply dnorm_ok in HN; [|exact HV]. rewrite HN, HU. reflexivity.
  - destruct (dnorm e nf (vctx_of lc) t []) as [js|k|x] eqn:ED; [|exfalso; unfold dnorm in ED; destruct (v1_normalize _ _ _ _ _ _) as [(b & j)|w]; discriminate|discriminate].
    exists js. split; [apply dnorm_ok; auto|]. destruct (obj_get js (L "unparsed-data")) as [x|] eqn:EX; [eauto|].
    destruct (obj_get js rem) as [[| | | |[|]| |]|]; discriminate.
Qed.

Lemma cons_tok_rec fu lc f sep0 sep1 sep d fd rem lc2 : vf_raw f = Some (sep0 ++ ":"%char :: d) -> arg sep0 -> clean d -> unesc e sep0 sep1 -> unesc e sep1 sep ->
  content e d fd -> rules_of e qs fu lc fd rem lc2 -> cons_tok e fu (vctx_of lc) f = EOk (STok sep rem false (Some (vctx_of lc2))).
Proof.
  intros HR (HS & HSN) HD (E1 & N1) (E2 & N2) HC HU. unfold cons_tok. rewrite HR. unfold pargs. rewrite drop_nul_id.
  2:{ intros X. apply in_app_or in X. destruct X as [X|[X|X]]; [contradiction|discriminate|contradiction]. }
  rewrite psplit_more by exact HS. cbn [psplit]. unfold unesc_arg. rewrite E1, drop_nul_id by exact N1. rewrite E2.
  pose proof (vfieldDescr_ok e _ _ [] HC) as (HV & _). rewrite app_nil_r in HV. change (L "%") with ["%"%char]. rewrite HV.
  pose proof (rules_ctx _ _ _ _ _ HU) as HX. rewrite HX. cbn [ebind].
  destruct HU as [r HK HR'|a file o more r lc' HK HR' (Ha1 & Ha2) Hm (Hu1 & Hu2) (w & HF & HW & HX') HL]; rewrite HK; reflexivity.
Qed.

Theorem tokenized_objects nf lc f sep0 sep1 sep d fd rem lc2 before t : c_version (l_ctx lc) = 1%N -> vf_kind f = KTokenized -> vf_raw f = Some (sep0 ++ ":"%char :: d) -> arg sep0 -> clean d ->
  unesc e sep0 sep1 -> unesc e sep1 sep -> sep <> [] -> content e d fd -> rules_of e qs (S nf) lc fd rem lc2 ->
  (forall t v u, object e nf lc2 rem t v u -> List.length u <= List.length t) -> t <> [] -> forall o v,
  run_field e (S nf) (vctx_of lc) (before ++ t) f (List.length before) = Ok (o, v) <->
  exists vs u, tokens (object e nf lc2 rem) (no_object e nf lc2) sep t vs u /\ v = JArr vs /\ o + List.length u = List.length before + List.length t.
Proof.
  intros HV HK HR HS HD H1 H2 HE HC HU SH0 Ht o v. assert (HV2 : c_version (l_ctx lc2) = 1%N) by (eapply rules_version; eauto).
  rewrite (run_tok e nf (vctx_of lc) f sep rem false (vctx_of lc2)) by (auto; eapply cons_tok_rec; eauto).
  rewrite oloop; auto; [|apply H2]. set (st := ostep nf (vctx_of lc2) rem).
  assert (SH : forall x y z, x <> [] /\ st x = SYes y z -> List.length z <= List.length x) by (intros x y z X; apply (SH0 x y z); apply object_ostep; auto).
  assert (TL : forall x vs u, tokens (fun t v u => t <> [] /\ st t = SYes v u) (fun t => t = [] \/ st t = SNo) sep x vs u -> List.length u <= List.length x).
  { intros x vs u H. induction H as [x w u HI|x w HI|x w u Hu HI|x w u vs y HI HX IH]; [apply SH in HI; lia|cbn; lia|apply SH in HI; lia|apply SH in HI; rewrite app_length in HI; lia]. }
  assert (IFF : forall l u, tokens (object e nf lc2 rem) (no_object e nf lc2) sep t l u <-> tokens (fun t v u => t <> [] /\ st t = SYes v u) (fun t => t = [] \/ st t = SNo) sep t l u).
  { intros l u. apply tokens_iff; intros; [apply object_ostep|apply no_object_ostep]; auto. }
  split.
  - intros H. apply bind_ok in H. destruct H as ([k l] & HG & E). apply gloop_exact in HG; auto. destruct HG as (u & HG & ->).
    pose proof (TL _ _ _ HG) as HL. exists l, u. split; [apply IFF; exact HG|].
    destruct (Z.ltb_spec (Z.of_nat (List.length before + List.length t) - Z.of_nat (List.length u)) 0); [lia|]. injection E as <- <-. split; [reflexivity|lia].
  - intros (vs & u & HG & -> & EO). apply IFF in HG. pose proof (TL _ _ _ HG) as HL.
    assert (HG' : gloop (S (List.length t)) st sep t [] = Ok (List.length u, vs)) by (apply gloop_exact; eauto).
    rewrite HG'. cbn [bind]. destruct (Z.ltb_spec (Z.of_nat (List.length before + List.length t) - Z.of_nat (List.length u)) 0); [lia|]. do 2 f_equal. lia.
Qed.
End S.
