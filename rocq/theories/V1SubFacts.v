(** * V1SubFacts: proofs about the v1 field types with rules of their own. *)
From Verif Require Import Base BaseFacts Parsers FieldSpec FieldFacts Engine EngineFacts2 Pdag Samp LineSpec BuiltSpec LoadSpec AnnotSpec AnnotFacts SynFacts EncFacts V1 V1Spec V1Facts V1Add V1Match V1LoadSpec V1Load V1Total V1FieldSpec V1Field V1Top V1SubSpec.
From Coq Require Import ZifyBool ZifyNat ZifyN.

Lemma psplit_S n s : psplit (S (S n)) s = match skipn (scan (fun c => negb (ceq c ":")) s) s with [] => [s] | _ :: s' => firstn (scan (fun c => negb (ceq c ":")) s) s :: psplit (S n) s' end.
Proof. reflexivity. Qed.
Lemma psplit_more n a s : ~ In ":"%char a -> psplit (S (S n)) (a ++ ":"%char :: s) = a :: psplit (S n) s.
Proof.
  intros H. rewrite psplit_S. rewrite (scan_app (fun c => negb (ceq c ":")) a).
  - rewrite skipn_lapp. rewrite firstn_pre. reflexivity.
  - apply Forall_forall. intros c Hc. destruct (ceq c ":") eqn:E; [apply ceq_true in E; subst; contradiction|reflexivity].
  - intros c r [= <- _]. reflexivity.
Qed.
Lemma psplit_end n a : ~ In ":"%char a -> psplit (S (S n)) a = [a].
Proof.
  intros H. rewrite psplit_S. rewrite <- (app_nil_r a) at 1 2. rewrite (scan_app (fun c => negb (ceq c ":")) a).
  - rewrite skipn_lapp. reflexivity.
  - apply Forall_forall. intros c Hc. destruct (ceq c ":") eqn:E; [apply ceq_true in E; subst; contradiction|reflexivity].
  - intros c r [=].
Qed.

Section S.
Variable e : env.
Hypothesis Hue : unescape e [] = [].

Lemma part_field ft f u : field_text e ft f -> literal_part ("%"%char :: ft ++ u) = ([], "%"%char :: ft ++ u).
Proof.
  intros H. destruct (field_text_head e ft f u H) as (c & v & -> & Hc). cbn [literal_part]. rewrite (proj2 (ceq_false _ _) Hc). reflexivity.
Qed.

Lemma content_name d f : content e d f -> vf_name f = L "default".
Proof.
  assert (HX : forall (b nm : text) r x, blanks b -> nm <> [] -> without ":" nm -> isspace (hd NUL nm) = false -> L "default:" ++ r = b ++ nm ++ ":"%char :: x -> nm = L "default").
  { intros b nm r x Hb Hn Hc Hs E. destruct b as [|c b].
    - cbn [app] in E. change (L "default:" ++ r) with (L "default" ++ ":"%char :: r) in E.
      assert (G : forall a b (r x : text), without ":" a -> without ":" b -> a ++ ":"%char :: r = b ++ ":"%char :: x -> a = b).
      { clear. induction a as [|c a IH]; intros [|d b] r x Ha Hb E; auto.
        - injection E as <- _. exfalso. apply Hb. left. reflexivity.
        - injection E as -> _. exfalso. apply Ha. left. reflexivity.
        - injection E as -> E. f_equal. eapply IH; [| |exact E]; intros X; [apply Ha|apply Hb]; right; exact X. }
      symmetry. eapply G; [|exact Hc|exact E]. cbn. intros X. repeat (destruct X as [X|X]; [discriminate|]). exact X.
    - exfalso. apply Forall_cons_iff in Hb. destruct Hb as (Hb & _). injection E as <- _. discriminate. }
  unfold content. intros H. remember (L "default:" ++ d ++ ["%"%char]) as w eqn:EW. destruct H as [b1 nm ty b2 kd Hb1 Hb2 Hn Hc Hs Hp HI|b1 nm ty b2 kd extra Hb1 Hb2 Hn Hc Hs Hp HI HE]; cbn [vf_name]; eapply (HX b1); eauto.
Qed.

Lemma vadd_field fuel tags ft f u p tm tg fs ls (cpn : p = []) : field_text e ft f ->
  vadd e (S fuel) tags ("%"%char :: ft ++ u) (VNode p tm tg fs ls) =
  do* fs' := addFDescr (fun t' => match u with [] => build (fun t'' => EOk (vterminal tags t'')) [] t' [] | _ => vadd e fuel tags u t' end) f fs in EOk (VNode p tm tg fs' ls).
Proof.
  intros H. subst p. rewrite (vadd_eq e fuel tags _ _ [] ("%"%char :: ft ++ u)); [|discriminate|eapply part_field; eauto].
  rewrite Hue. cbn [build cpl skipn vcont]. destruct (vfieldDescr_ok e ft f u H) as (-> & _). reflexivity.
Qed.

Lemma tail_text : field_text e (L "tail:rest%") tail_field.
Proof.
  apply (ft_plain e [] (L "tail") "rest" [] KRest); try apply Forall_nil; try discriminate; try reflexivity.
  - cbn. intros X. repeat (destruct X as [X|X]; [discriminate|]). exact X.
  - cbn. tauto.
Qed.

Lemma gen_ctx_ok d f : content e d f -> gen_ctx e d = EOk (one_field f).
Proof.
  intros H. unfold gen_ctx.
  replace (L "rule=:%default:" ++ d ++ L "%" ++ L "%tail:rest%") with (rule_line [] ("%"%char :: (L "default:" ++ d ++ ["%"%char]) ++ "%"%char :: L "tail:rest%" ++ [])).
  2:{ unfold rule_line. cbn [comma app]. rewrite <- !app_assoc. reflexivity. }
  rewrite v1_line_rule by (auto; discriminate). cbn [in_force l_ctx v1_child c_prefix initCtx app tag_list l_tree].
  unfold vaddSamp. change vnew with (VNode [] false None [] []). rewrite (vadd_field _ _ _ f) by (auto; exact H).
  cbn [addFDescr].
  assert (E1 : forall fu, 0 < fu -> vadd e fu None ("%"%char :: L "tail:rest%" ++ []) vnew = EOk (VNode [] false None [(tail_field, VNode [] true None [] [])] [])).
  { intros [|fu] Hfu; [lia|]. change vnew with (VNode [] false None [] []). rewrite (vadd_field _ _ _ tail_field) by (auto; apply tail_text). reflexivity. }
  cbn [List.length]. rewrite E1 by lia. cbn [ebind].
  replace (L "rule=:%default:" ++ d ++ L "%") with (rule_line [] ("%"%char :: (L "default:" ++ d ++ ["%"%char]) ++ [])).
  2:{ unfold rule_line. cbn [comma app]. rewrite app_nil_r. reflexivity. }
  rewrite v1_line_rule by (auto; discriminate). cbn [in_force l_ctx v1_child c_prefix initCtx app tag_list l_tree].
  unfold vaddSamp. rewrite (vadd_field _ _ _ f) by (auto; exact H). cbn [addFDescr]. rewrite same_refl. reflexivity.
Qed.

(** ** Normalizing with a content type *)
Definition content_js (f : vfield) (t : text) (n : nat) (v : json) (js : fields) : fields :=
  obj_add (if Nat.ltb n (List.length t) then obj_add js (L "tail") (JStr (skipn n t)) else js) (L "default") v.

Lemma skipn_clean n (t : text) : ~ In NUL t -> ~ In NUL (skipn n t).
Proof. intros H X. apply H. rewrite <- (firstn_skipn n t). apply in_or_app. right. exact X. Qed.

Lemma tail_store v js : vstore tail_field v js = obj_add js (L "tail") v.
Proof. reflexivity. Qed.

Lemma vhit_nz r en : r <> 0%Z -> vhit r en = EOk false.
Proof. intros H. unfold vhit. destruct (Z.eqb_spec r 0); [contradiction|reflexivity]. Qed.

Lemma content_sub runf t n js en : ~ In NUL t -> vrec e t runf (VNode [] true None [(tail_field, VNode [] true None [] [])] []) n js en =
  EOk (0%Z, if Nat.ltb n (List.length t) then obj_add js (L "tail") (JStr (skipn n t)) else js, Some (true, None)).
Proof.
  intros HN. rewrite vrec_eq. destruct (Nat.ltb_spec n (List.length t)) as [H|H]; destruct (Nat.leb_spec (List.length t) n) as [H2|H2]; try lia; [|reflexivity].
  cbn [cpl List.length Nat.ltb Nat.leb]. rewrite Nat.add_0_r. cbn [floop vf_kind tail_field]. change (vkind_eqb KRest KIptables) with false. change (vkind_eqb KRest KRest) with true. cbn iota. cbn [ebind].
  destruct (nth_error t n) as [c|] eqn:EN; [|apply nth_error_None in EN; lia]. cbn [lloop ebind].
  rewrite vhit_nz by lia. cbn [ebind].
  rewrite vrec_eq, Nat.leb_refl. cbn [ebind List.length Z.of_nat Z.opp Z.eqb andb negb]. rewrite andb_false_r.
  change (lastipt [(tail_field, VNode [] true None [] [])]) with false. cbn iota. rewrite tail_store. rewrite AnnotFacts.cstr_id by (apply skipn_clean; exact HN). reflexivity.
Qed.

Lemma vstore_default f v js : vf_name f = L "default" -> vstore f v js = obj_add js (L "default") v.
Proof. intros H. unfold vstore. rewrite H. reflexivity. Qed.

Lemma norm_content nf f t js0 : vf_name f = L "default" -> vf_kind f <> KIptables -> t <> [] -> ~ In NUL t ->
  v1_normalize e (run_field e nf (one_field f) t) (fst (one_field f)) (snd (one_field f)) t js0 =
  match run_field e nf (one_field f) t f 0 with
  | Ub u => EUb u
  | Bad _ => EOk (false, obj_add (obj_add js0 (L "originalmsg") (JStr t)) (L "unparsed-data") (JStr t))
  | Ok (n, v) => EOk (true, content_js f t n v js0)
  end.
Proof.
  intros HF HK Ht HN. set (rf := run_field e nf (one_field f) t). unfold v1_normalize. cbn [fst snd one_field].
  rewrite vrec_eq. destruct (Nat.leb_spec (List.length t) 0) as [H|H]; [destruct t; [congruence|cbn in H; lia]|].
  cbn [cpl List.length Nat.ltb Nat.leb]. cbn [Nat.add floop].
  destruct (vkind_eqb (vf_kind f) KIptables) eqn:E1; [apply vkind_eqb_true in E1; congruence|].
  destruct (vkind_eqb (vf_kind f) KRest) eqn:E2.
  - cbn [ebind]. apply vkind_eqb_true in E2.
    assert (ER : rf f 0 = Ok (List.length t, JStr t)).
    { unfold rf. rewrite run_plain by (rewrite E2; reflexivity). unfold run_v1. rewrite E2. unfold vtext. rewrite skipn_O. unfold parseRest, ok_text. cbn [bind Nat.add].
      rewrite firstn_all, AnnotFacts.cstr_id by exact HN. reflexivity. }
    rewrite ER. destruct (nth_error t 0) as [c|] eqn:EN; [|apply nth_error_None in EN; lia]. cbn [lloop ebind].
    rewrite vhit_nz by lia. cbn [ebind].
    rewrite content_sub by exact HN. rewrite Nat.ltb_irrefl. cbn [ebind Z.eqb andb negb]. rewrite andb_false_r. cbn [ebind].
    replace (lastipt [(f, VNode [] true None [(tail_field, VNode [] true None [] [])] [])]) with false by (unfold lastipt; cbn [rev app]; rewrite E2; reflexivity).
    cbn [vhit Z.eqb ebind]. rewrite vstore_default by exact HF. unfold content_js. rewrite Nat.ltb_irrefl. cbn [skipn]. rewrite AnnotFacts.cstr_id by exact HN. reflexivity.
  - destruct (rf f 0) as [[n v]|k|u] eqn:ER; [| |reflexivity].
    + rewrite content_sub by exact HN. cbn [ebind vhit Z.eqb]. cbn [ebind vhit Z.eqb]. rewrite vstore_default by exact HF. reflexivity.
    + cbn [ebind]. destruct (nth_error t 0) as [c|] eqn:EN; [|apply nth_error_None in EN; lia]. cbn [lloop ebind].
      rewrite vhit_nz by lia. cbn [ebind].
      rewrite vhit_nz by lia. cbn [ebind].
      destruct (Z.ltb_spec (Z.of_nat (List.length t - 0)) 0); [lia|]. replace (List.length t - Z.to_nat (Z.of_nat (List.length t - 0))) with 0 by lia.
      unfold addUnparsed. rewrite AnnotFacts.cstr_id by exact HN. reflexivity.
Qed.
Lemma norm_content_nil nf f js0 : v1_normalize e (run_field e nf (one_field f) []) (fst (one_field f)) (snd (one_field f)) [] js0 =
  EOk (false, obj_add (obj_add js0 (L "originalmsg") (JStr [])) (L "unparsed-data") (JStr [])).
Proof. reflexivity. Qed.
End S.
