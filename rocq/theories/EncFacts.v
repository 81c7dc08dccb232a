(** * EncFacts: the encoders write what the readers of EncSpec read, and nothing else can be read from it. *)
From Verif Require Import Base Time Parsers Engine Pdag Samp BaseFacts FieldFacts FieldFacts10 Enc EncSpec.

Ltac sweepc := let c := fresh "c" in intro c; revert c; sweep.

(** ** CSV value *)
Definition csv_check (c : ascii) : bool := implb (negb (ceq c NUL))
  (if (N.leb 32 (code c) && negb (ceq c """") && negb (ceq c "\"))%bool then text_eqb (csv_char c) [c]
   else if mem [""""; "\"; chr 8; chr 12; chr 10; chr 13; chr 9]%char c then text_eqb (csv_char c) ["\"%char; if ceq c """" then """"%char else if ceq c "\" then "\"%char else if ceq c (chr 8) then "b"%char else if ceq c (chr 12) then "f"%char else if ceq c (chr 10) then "n"%char else if ceq c (chr 13) then "r"%char else "t"%char]
   else match csv_char c with
        | [a1; a2; a3; a4; x; y] => (text_eqb [a1; a2; a3; a4] (L "\u00") && match hexval x, hexval y with Some nx, Some ny => N.eqb (nx * 16 + ny) (code c) | _, _ => false end)%bool
        | _ => false end).
Lemma csv_check_all : forall c, csv_check c = true.
Proof. intros [[] [] [] [] [] [] [] []]; vm_compute; reflexivity. Qed.

Lemma csv_char_ok c : c <> NUL -> (json_plain c /\ csv_char c = [c]) \/ json_escape (csv_char c) c.
Proof.
  intros Hc.
  assert (H : (negb (ceq c NUL)) = true ->
    if (N.leb 32 (code c) && negb (ceq c """") && negb (ceq c "\"))%bool then csv_char c = [c]
    else if mem [""""; "\"; chr 8; chr 12; chr 10; chr 13; chr 9]%char c then csv_char c = ["\"%char; if ceq c """" then """"%char else if ceq c "\" then "\"%char else if ceq c (chr 8) then "b"%char else if ceq c (chr 12) then "f"%char else if ceq c (chr 10) then "n"%char else if ceq c (chr 13) then "r"%char else "t"%char]
    else exists x y, csv_char c = L "\u00" ++ [x; y] /\ exists nx ny, hexval x = Some nx /\ hexval y = Some ny /\ (nx * 16 + ny)%N = code c).
  { clear Hc. intros HN. pose proof (csv_check_all c) as HK. unfold csv_check in HK. rewrite HN in HK.
    cbn [implb] in HK.
    destruct (N.leb 32 (code c) && negb (ceq c """") && negb (ceq c "\"))%bool; [now apply text_eqb_true|].
    destruct (mem _ c); [now apply text_eqb_true|].
    destruct (csv_char c) as [|a1 [|a2 [|a3 [|a4 [|x [|y [|]]]]]]]; try discriminate.
    apply andb_true_iff in HK as [HK1 HK2]. apply text_eqb_true in HK1.
    destruct (hexval x) as [nx|] eqn:Ex; [|discriminate]. destruct (hexval y) as [ny|] eqn:Ey; [|discriminate].
    apply N.eqb_eq in HK2. exists x, y. split.
    - change ([a1; a2; a3; a4; x; y]) with ([a1; a2; a3; a4] ++ [x; y]). rewrite HK1. reflexivity.
    - exists nx, ny. auto. }
  destruct (ceq c NUL) eqn:EN; [apply ceq_true in EN; contradiction|]. specialize (H eq_refl).
  destruct (N.leb 32 (code c) && negb (ceq c """") && negb (ceq c "\"))%bool eqn:E1.
  - left. split; [|exact H]. apply andb_true_iff in E1 as [E1 E3]. apply andb_true_iff in E1 as [E1 E2].
    apply N.leb_le in E1. apply negb_true_iff in E2, E3. apply ceq_false in E2, E3. repeat split; auto.
  - right. destruct (mem _ c) eqn:EM.
    + apply mem_In in EM. rewrite H. cbn [In] in EM. decompose [or] EM; try contradiction; subst c; vm_compute; constructor.
    + destruct H as (x & y & -> & nx & ny & Hx & Hy & HE).
      assert (HL : (nx * 16 + ny < 256)%N) by (rewrite HE; apply N_ascii_bounded).
      assert (HC : c = chr (0 * 4096 + 0 * 256 + nx * 16 + ny)) by (cbn [N.mul N.add]; rewrite HE; symmetry; apply ascii_N_embedding).
      rewrite HC. change (L "\u00" ++ [x; y]) with (L "\u" ++ ["0"%char; "0"%char; x; y]). apply je_u; auto.
Qed.

Lemma csv_value_ok v : no_nul v -> json_text (addValue_CSV v) v.
Proof.
  intros Hv. unfold addValue_CSV. rewrite cstr_id by exact Hv.
  induction v as [|c v IH]; [constructor|]. cbn [flat_map].
  assert (Hc : c <> NUL) by (intros ->; apply Hv; left; reflexivity).
  assert (Hv' : no_nul v) by (intros HI; apply Hv; right; exact HI).
  destruct (csv_char_ok c Hc) as [[Hp ->]|He].
  - apply jt_plain; auto.
  - apply jt_escape; auto.
Qed.

Lemma json_text_app w v w' v' : json_text w v -> json_text w' v' -> json_text (w ++ w') (v ++ v').
Proof.
  induction 1; intros H'; cbn [app]; auto.
  - apply jt_plain; auto.
  - rewrite <- app_assoc. apply jt_escape; auto.
Qed.

Lemma json_escape_hd x c : json_escape x c -> exists d r, x = "\"%char :: d :: r.
Proof. intros []; eexists; eexists; reflexivity. Qed.

Lemma json_escape_fun x c x' c' w w' : json_escape x c -> json_escape x' c' -> x ++ w = x' ++ w' -> x = x' /\ c = c' /\ w = w'.
Proof.
  intros H H'.
  destruct H as [| | | | | | |a b d g na nb nd ng Ha Hb Hd Hg HL]; destruct H' as [| | | | | | |a' b' d' g' na' nb' nd' ng' Ha' Hb' Hd' Hg' HL'];
    cbn [L list_ascii_of_string app]; intros HE; try discriminate HE; injection HE; intros; subst; auto.
  assert (na' = na) by congruence. assert (nb' = nb) by congruence. assert (nd' = nd) by congruence. assert (ng' = ng) by congruence. subst. auto.
Qed.

Lemma json_text_delim w v w' v' r r' : json_text w v -> json_text w' v' ->
  w ++ """"%char :: r = w' ++ """"%char :: r' -> w = w' /\ v = v' /\ r = r'.
Proof.
  intros H. revert w' v'. induction H as [|c w v Hp H IH|x c w v He H IH]; intros w' v' H' HE.
  - destruct H' as [|c' w' v' (_ & Hq & _) H'|x' c' w' v' He' H'].
    + injection HE as HE. auto.
    + injection HE as <- _. congruence.
    + destruct (json_escape_hd _ _ He') as (d & k & ->). discriminate HE.
  - destruct H' as [|c' w' v' Hp' H'|x' c' w' v' He' H'].
    + destruct Hp as (_ & Hq & _). injection HE as -> _. congruence.
    + injection HE as <- HE. destruct (IH _ _ H' HE) as (-> & -> & ->). auto.
    + destruct (json_escape_hd _ _ He') as (d & k & ->). injection HE as -> _. destruct Hp as (_ & _ & Hb). congruence.
  - destruct H' as [|c' w' v' (_ & _ & Hb) H'|x' c' w' v' He' H'].
    + destruct (json_escape_hd _ _ He) as (d & k & ->). discriminate HE.
    + destruct (json_escape_hd _ _ He) as (d & k & ->). injection HE as <- _. congruence.
    + rewrite <- !app_assoc in HE. destruct (json_escape_fun _ _ _ _ _ _ He He' HE) as (-> & -> & HE').
      destruct (IH _ _ H' HE') as (-> & -> & ->). auto.
Qed.

Section Row.
Variable q : text -> text -> Prop.
Hypothesis q_delim : forall w v w' v' r r', q w v -> q w' v' -> (r = [] \/ exists k, r = ","%char :: k) -> (r' = [] \/ exists k, r' = ","%char :: k) ->
  w ++ """"%char :: r = w' ++ """"%char :: r' -> w = w' /\ v = v' /\ r = r'.
Lemma row_fun t cols : row q t cols -> forall cols', row q t cols' -> cols' = cols.
Proof.
  induction 1 as [|w v Hw|t cols H IH|w v t cols Hw H IH]; intros cols' H'.
  - inversion H'; auto.
  - remember ([""""%char] ++ w ++ [""""%char]) as u eqn:Eu. destruct H' as [|w' v' Hw'|t' cols' H'|w' v' t' cols' Hw' H']; try discriminate Eu.
    + injection Eu as Eu. destruct (q_delim _ _ _ _ _ _ Hw' Hw (or_introl eq_refl) (or_introl eq_refl) Eu) as (_ & -> & _). reflexivity.
    + injection Eu as Eu. destruct (q_delim w' v' w v (","%char :: t') [] Hw' Hw (or_intror (ex_intro _ _ eq_refl)) (or_introl eq_refl) Eu) as (_ & _ & HF). discriminate HF.
  - remember (","%char :: t) as u eqn:Eu. destruct H' as [|w' v' Hw'|t' cols' H'|w' v' t' cols' Hw' H']; try discriminate Eu.
    injection Eu as ->. rewrite (IH _ H'). reflexivity.
  - remember ([""""%char] ++ w ++ [""""%char] ++ ","%char :: t) as u eqn:Eu. destruct H' as [|w' v' Hw'|t' cols' H'|w' v' t' cols' Hw' H']; try discriminate Eu.
    + injection Eu as Eu. destruct (q_delim w' v' w v [] (","%char :: t) Hw' Hw (or_introl eq_refl) (or_intror (ex_intro _ _ eq_refl)) Eu) as (_ & _ & HF). discriminate HF.
    + injection Eu as Eu. destruct (q_delim w' v' w v (","%char :: t') (","%char :: t) Hw' Hw (or_intror (ex_intro _ _ eq_refl)) (or_intror (ex_intro _ _ eq_refl)) Eu) as (_ & -> & HF).
      injection HF as ->. rewrite (IH _ H'). reflexivity.
Qed.
End Row.

Lemma json_row_fun t cols cols' : row json_text t cols -> row json_text t cols' -> cols' = cols.
Proof. intros H. apply (row_fun json_text); [|exact H]. intros w v w' v' r r' Hw Hw' _ _. apply json_text_delim; assumption. Qed.

Lemma rfc4180_delim w v w' v' r r' : rfc4180_text w v -> rfc4180_text w' v' -> (r = [] \/ exists k, r = ","%char :: k) -> (r' = [] \/ exists k, r' = ","%char :: k) ->
  w ++ """"%char :: r = w' ++ """"%char :: r' -> w = w' /\ v = v' /\ r = r'.
Proof.
  intros H. revert w' v'. induction H as [|c w v Hc H IH|w v H IH]; intros w' v' H' Hr Hr' HE.
  - destruct H' as [|c' w' v' Hc' H'|w' v' H'].
    + injection HE as HE. auto.
    + injection HE as <- _. congruence.
    + injection HE as HE. destruct Hr as [->|(k & ->)]; discriminate HE.
  - destruct H' as [|c' w' v' Hc' H'|w' v' H'].
    + injection HE as -> _. congruence.
    + injection HE as <- HE. destruct (IH _ _ H' Hr Hr' HE) as (-> & -> & ->). auto.
    + injection HE as -> _. congruence.
  - destruct H' as [|c' w' v' Hc' H'|w' v' H'].
    + injection HE as HE. destruct Hr' as [->|(k & ->)]; discriminate HE.
    + injection HE as <- _. congruence.
    + injection HE as HE. destruct (IH _ _ H' Hr Hr' HE) as (-> & -> & ->). auto.
Qed.
Lemma rfc4180_row_fun t cols cols' : row rfc4180_text t cols -> row rfc4180_text t cols' -> cols' = cols.
Proof. intros H. apply (row_fun rfc4180_text); [|exact H]. apply rfc4180_delim. Qed.

(** ** CSV event *)
Lemma scalar_jstring e j v : scalar e j v -> jstring e j = Some v /\ no_nul v.
Proof. intros [s H|z H]; cbn [jstring]; [rewrite cstr_id by exact H|]; auto. Qed.

Lemma listed_names t ns : listed t ns -> csv_names t = ns.
Proof.
  assert (HP : forall n t, ~ In ","%char n -> ~ In " "%char n -> csv_names (n ++ t) = match csv_names t with x :: xs => (n ++ x) :: xs | [] => [n] end).
  { induction n as [|c n IH]; intros u H1 H2.
    - cbn [app]. assert (HN : csv_names u <> []).
      { destruct u as [|c u]; cbn [csv_names]; [discriminate|]. destruct (_ || _)%bool; [discriminate|]. destruct (csv_names u); discriminate. }
      destruct (csv_names u) as [|x xs]; [contradiction|reflexivity].
    - cbn [app csv_names]. rewrite IH by (intros HI; (apply H1 + apply H2); right; exact HI).
      replace (ceq c "," || ceq c " ")%bool with false.
      + destruct (csv_names u); reflexivity.
      + symmetry. apply orb_false_iff. split; apply ceq_false; intros ->; (apply H1 + apply H2); left; reflexivity. }
  induction 1 as [n H1 H2|n s t ns H1 H2 Hs H IH].
  - rewrite <- (app_nil_r n) at 1. rewrite HP by assumption. cbn [csv_names]. rewrite app_nil_r. reflexivity.
  - rewrite HP by assumption. cbn [csv_names]. replace (ceq s "," || ceq s " ")%bool with true by (destruct Hs as [->| ->]; reflexivity).
    rewrite IH, app_nil_r. reflexivity.
Qed.

Lemma member_get o n x : member o n x -> obj_get o n = x.
Proof.
  destruct x as [v|]; cbn [member].
  - intros (a & b & -> & HN). induction a as [|[k w] a IH]; cbn [app obj_get].
    + rewrite text_eqb_refl. reflexivity.
    + cbn [map fst In] in HN. destruct (text_eqb n k) eqn:E; [apply text_eqb_true in E; subst; exfalso; apply HN; left; reflexivity|].
      apply IH. intros HI. apply HN. right. exact HI.
  - intros HN. induction o as [|[k w] o IH]; [reflexivity|]. cbn [obj_get]. cbn [map fst In] in HN.
    destruct (text_eqb n k) eqn:E; [apply text_eqb_true in E; subst; exfalso; apply HN; left; reflexivity|].
    apply IH. intros HI. apply HN. right. exact HI.
Qed.

Lemma comma_loop_ok e add l vs : Forall2 (scalar e) l vs -> forall b,
  comma_loop e add b l = (match vs with [] => [] | _ => (if b then L "," else []) ++ commas (map add vs) end, true).
Proof.
  induction 1 as [|j v l vs Hj H IH]; intros b; [reflexivity|]. cbn [comma_loop map].
  destruct (scalar_jstring _ _ _ Hj) as [-> _]. rewrite IH. destruct vs as [|v' vs]; cbn [map commas]; [rewrite app_nil_r; reflexivity|].
  f_equal.
Qed.

Lemma Forall2_rev' {A B} (R : A -> B -> Prop) l m : Forall2 R l m -> Forall2 R (rev l) (rev m).
Proof. induction 1; cbn [rev]; [constructor|]. apply Forall2_app; auto. Qed.

Lemma json_plain_dec c : (N.leb 32 (code c) && negb (ceq c """") && negb (ceq c "\"))%bool = true -> json_plain c.
Proof.
  intros E1. apply andb_true_iff in E1 as [E1 E3]. apply andb_true_iff in E1 as [E1 E2].
  apply N.leb_le in E1. apply negb_true_iff in E2, E3. apply ceq_false in E2, E3. repeat split; auto.
Qed.

Lemma json_commas vs : Forall no_nul vs -> json_text (commas (map addValue_CSV vs)) (commas vs).
Proof.
  induction vs as [|v vs IH]; intros H; [constructor|]. pose proof (Forall_inv H) as Hv. apply Forall_inv_tail in H.
  destruct vs as [|v' vs]; cbn [map commas] in *; [apply csv_value_ok; exact Hv|].
  apply json_text_app; [apply csv_value_ok; exact Hv|]. apply jt_plain; [apply json_plain_dec; reflexivity|]. apply IH, H.
Qed.

Lemma scalars_no_nul e l vs : Forall2 (scalar e) l vs -> Forall no_nul vs.
Proof. induction 1 as [|j v l vs Hj H IH]; constructor; auto. apply scalar_jstring in Hj. tauto. Qed.

Lemma json_plain_text t : forallb (fun c => N.leb 32 (code c) && negb (ceq c """") && negb (ceq c "\"))%bool t = true -> json_text t t.
Proof.
  induction t as [|c t IH]; [constructor|]. cbn [forallb]. intros H. apply andb_true_iff in H as [H1 H2].
  apply jt_plain; [apply json_plain_dec; exact H1|apply IH, H2].
Qed.

Lemma csv_field_ok e o n c : csv_cell e o n c ->
  match c with
  | None => obj_get o n = None \/ obj_get o n = Some JNull
  | Some v => exists j, obj_get o n = Some j /\ j <> JNull /\ json_text (addField_CSV e j) v
  end.
Proof.
  intros [HM|HM|j v HM Hj|l vs HM HF|j HM Hj].
  - left. apply member_get in HM. exact HM.
  - right. apply member_get in HM. exact HM.
  - exists j. apply member_get in HM. split; [exact HM|]. destruct (scalar_jstring _ _ _ Hj) as [HS HN].
    split; [intros ->; discriminate HS|]. destruct Hj; cbn [addField_CSV]; rewrite HS; apply csv_value_ok; exact HN.
  - exists (JArr l). apply member_get in HM. split; [exact HM|]. split; [discriminate|]. cbn [addField_CSV].
    apply Forall2_rev' in HF. rewrite (comma_loop_ok e addValue_CSV _ _ HF).
    pose proof (json_commas _ (scalars_no_nul _ _ _ HF)) as HJ.
    apply (json_text_app (L "[") (L "[")); [apply json_plain_text; reflexivity|]. apply json_text_app; [|apply json_plain_text; reflexivity].
    destruct (rev vs); [constructor|exact HJ].
  - exists j. apply member_get in HM. split; [exact HM|]. split; [intros ->; exact Hj|]. 
    destruct j; try contradiction; cbn [addField_CSV]; apply json_plain_text; reflexivity.
Qed.

Lemma csv_columns_row (q : text -> text -> Prop) e o names cols :
  Forall2 (fun n c => match c with
    | None => obj_get o n = None \/ obj_get o n = Some JNull
    | Some v => exists j, obj_get o n = Some j /\ j <> JNull /\ q (addField_CSV e j) v
    end) names cols -> names <> [] -> row q (csv_columns e o false names) cols.
Proof.
  induction 1 as [|n c names cols Hc H IH]; intros HN; [congruence|]. cbn [csv_columns app].
  assert (HT : forall b, csv_columns e o b names = (if b then match names with [] => [] | _ => L "," end else []) ++ csv_columns e o false names).
  { intros []; [|reflexivity]. destruct names; reflexivity. }
  rewrite (HT true).
  destruct c as [v|].
  - destruct Hc as (j & HG & HJ & HV). rewrite HG.
    assert (HG' : match j with JNull => [] | _ => [""""%char] ++ addField_CSV e j ++ [""""%char] end = [""""%char] ++ addField_CSV e j ++ [""""%char]) by (destruct j; congruence).
    cbn [app] in HG'. rewrite HG'.
    destruct names as [|n' names].
    + inversion H; subst. cbn [csv_columns app]. rewrite app_nil_r. apply row_one. exact HV.
    + cbn [L list_ascii_of_string app]. rewrite <- app_assoc. cbn [app]. apply (row_more q _ _ _ _ HV). apply IH. discriminate.
  - assert (HG' : match obj_get o n with Some JNull | None => [] | Some field => [""""%char] ++ addField_CSV e field ++ [""""%char] end = @nil ascii) by (destruct Hc as [-> | ->]; reflexivity).
    cbn [app] in HG'. rewrite HG'. destruct names as [|n' names].
    + inversion H; subst. cbn [csv_columns app]. apply row_one_empty.
    + cbn [L list_ascii_of_string app]. apply row_empty. apply IH. discriminate.
Qed.

Lemma csv_columns_ok e o names cols : Forall2 (csv_cell e o) names cols -> names <> [] ->
  row json_text (csv_columns e o false names) cols.
Proof.
  intros H. apply csv_columns_row. induction H as [|n c names cols Hc H IH]; constructor; auto. apply csv_field_ok, Hc.
Qed.

Lemma csv_char_plain c : json_plain c -> csv_char c = [c].
Proof.
  intros (H1 & H2 & H3). apply N.leb_le in H1. apply ceq_false in H2, H3.
  assert (H : forall c, (N.leb 32 (code c) && negb (ceq c """") && negb (ceq c "\"))%bool = true -> csv_char c = [c]).
  { clear. intros [[] [] [] [] [] [] [] []]; vm_compute; intros H; (discriminate H || reflexivity). }
  apply H. rewrite H1, H2, H3. reflexivity.
Qed.
Lemma plain_no_nul v : Forall json_plain v -> no_nul v.
Proof. intros H HI. rewrite Forall_forall in H. destruct (H _ HI) as (HL & _). vm_compute in HL. apply HL. reflexivity. Qed.
Lemma csv_value_plain v : Forall json_plain v -> addValue_CSV v = v.
Proof.
  intros H. unfold addValue_CSV. rewrite cstr_id by exact (plain_no_nul _ H). induction H as [|c v Hc H IH]; [reflexivity|].
  cbn [flat_map]. rewrite (csv_char_plain _ Hc), IH. reflexivity.
Qed.
Lemma rfc4180_plain v : Forall json_plain v -> rfc4180_text v v.
Proof. induction 1 as [|c v (_ & Hc & _) H IH]; constructor; auto. Qed.

Lemma commas_plain vs : Forall json_plain (commas vs) -> Forall (Forall json_plain) vs.
Proof.
  induction vs as [|v vs IH]; intros H; [constructor|]. destruct vs as [|v' vs]; [constructor; [exact H|constructor]|].
  cbn [commas] in H. apply Forall_app in H as [H1 H2]. constructor; [exact H1|]. apply IH. apply Forall_inv_tail in H2. exact H2.
Qed.

Lemma csv_field_plain e o n v : csv_cell e o n (Some v) -> Forall json_plain v ->
  exists j, obj_get o n = Some j /\ j <> JNull /\ addField_CSV e j = v.
Proof.
  intros HC HP. inversion HC as [|HM|j v' HM Hj Ev|l vs HM HF Ev|j HM Hj Ev]; subst.
  - exists j. apply member_get in HM. split; [exact HM|]. destruct (scalar_jstring _ _ _ Hj) as [HS HN].
    split; [intros ->; discriminate HS|]. destruct Hj; cbn [addField_CSV]; rewrite HS; apply csv_value_plain; exact HP.
  - exists (JArr l). apply member_get in HM. split; [exact HM|]. split; [discriminate|]. cbn [addField_CSV].
    apply Forall2_rev' in HF. rewrite (comma_loop_ok e addValue_CSV _ _ HF).
    apply Forall_inv_tail in HP. apply Forall_app in HP as [HP _]. apply commas_plain in HP.
    assert (HM' : map addValue_CSV (rev vs) = rev vs).
    { clear -HP. induction HP as [|v l Hv H IH]; [reflexivity|]. cbn [map]. rewrite IH, csv_value_plain by exact Hv. reflexivity. }
    rewrite HM'. destruct (rev vs); reflexivity.
  - exists j. apply member_get in HM. split; [exact HM|]. split; [intros ->; exact Hj|]. destruct j; try contradiction; reflexivity.
Qed.

Lemma csv_columns_rfc e o names cols : Forall2 (csv_cell e o) names cols -> names <> [] ->
  (forall v, In (Some v) cols -> Forall json_plain v) -> row rfc4180_text (csv_columns e o false names) cols.
Proof.
  intros H HN HP. apply csv_columns_row; [|exact HN]. clear HN. induction H as [|n c names cols Hc H IH]; constructor.
  - destruct c as [v|]; [|apply (csv_field_ok e o n None Hc)].
    destruct (csv_field_plain _ _ _ _ Hc (HP v (or_introl eq_refl))) as (j & H1 & H2 & H3). exists j. rewrite H3.
    repeat split; auto. apply rfc4180_plain. apply HP. left. reflexivity.
  - apply IH. intros v Hv. apply HP. right. exact Hv.
Qed.

Lemma csv_names_ne t : csv_names t <> [].
Proof. destruct t as [|c u]; cbn [csv_names]; [discriminate|]. destruct (_ || _)%bool; [discriminate|]. destruct (csv_names u); discriminate. Qed.

Lemma drop_nul_id t : no_nul t -> drop_nul t = t.
Proof.
  intros H. induction t as [|c t IH]; [reflexivity|]. cbn [drop_nul filter]. replace (ceq c NUL) with false.
  - cbn [negb]. f_equal. apply IH. intros HI. apply H. right. exact HI.
  - symmetry. apply ceq_false. intros ->. apply H. left. reflexivity.
Qed.

Lemma csv_event_ok e o spec names cols : no_nul spec -> listed spec names -> Forall2 (csv_cell e o) names cols ->
  exists out, fmtEventToCSV e (JObj o) (Some spec) = Ok (0%Z, out) /\ row json_text out cols.
Proof.
  intros HN HL HC. eexists. split; [reflexivity|]. rewrite drop_nul_id by exact HN. rewrite (listed_names _ _ HL).
  apply csv_columns_ok; [exact HC|]. rewrite <- (listed_names _ _ HL). apply csv_names_ne.
Qed.

Lemma csv_event_rfc e o spec names cols : no_nul spec -> listed spec names -> Forall2 (csv_cell e o) names cols ->
  (forall v, In (Some v) cols -> Forall json_plain v) ->
  exists out, fmtEventToCSV e (JObj o) (Some spec) = Ok (0%Z, out) /\ row rfc4180_text out cols.
Proof.
  intros HN HL HC HP. eexists. split; [reflexivity|]. rewrite drop_nul_id by exact HN. rewrite (listed_names _ _ HL).
  apply csv_columns_rfc; auto. rewrite <- (listed_names _ _ HL). apply csv_names_ne.
Qed.

(** Every name list lists some names *)
Lemma listed_total t : exists ns, listed t ns.
Proof.
  induction t as [|c t [ns IH]]; [exists [[]]; apply li_one; intros []|].
  destruct (Ascii.eqb_spec c ","%char) as [->|H1]; [exists ([] :: ns); apply (li_more [] ","%char); auto; intros []|].
  destruct (Ascii.eqb_spec c " "%char) as [->|H2]; [exists ([] :: ns); apply (li_more [] " "%char); auto; intros []|].
  destruct IH as [n Ha Hb|n s t ns Ha Hb Hs IH].
  - exists [c :: n]. apply li_one; intros [HI|HI]; auto.
  - exists ((c :: n) :: ns). apply (li_more (c :: n) s t ns); auto; intros [HI|HI]; auto.
Qed.
