(** * EngineFacts2: ln_normalize on top of EngineFacts. *)
From Verif Require Import Base Time Parsers Engine EngineSpec BaseFacts EngineFacts.
From Coq Require Import ZifyBool ZifyNat ZifyN.

(** The pieces of a match put together are the message. *)
Definition piece (msg : text) (st : step) : text := firstn (st_to st - st_from st) (skipn (st_from st) msg).

Lemma walk_pieces e cx msg : forall w nd offs en, walk e cx msg false nd offs w en -> offs <= List.length msg ->
  List.concat (map (piece msg) w) = skipn offs msg.
Proof.
  induction w as [|st w IH]; intros nd offs en H Hle; inversion H as [nd' n' offs' Hn' Ht Hc|nd' n offs' i p to v w' en' Hn Hi Ha Hw]; subst; cbn [map List.concat].
  - destruct Hc as [->|]; [|discriminate]. rewrite skipn_all. reflexivity.
  - assert (Hto : offs <= to) by (destruct Ha as (m & k & _ & _ & -> & _); lia).
    assert (Hle2 : to <= List.length msg).
    { inversion Hw as [? ? ? ? ? [?|?]|? ? ? ? ? ? ? ? ? ? ? Ha2]; subst; [lia|discriminate|]. destruct Ha2 as (m & k & _ & Hl & _). exact Hl. }
    rewrite (IH _ _ _ Hw Hle2). unfold piece. cbn [st_from st_to].
    replace (skipn to msg) with (skipn (to - offs) (skipn offs msg)) by (rewrite skipn_skipn'; f_equal; lia).
    apply firstn_skipn.
Qed.

Lemma ebind_ok {A B} (x : er A) (f : A -> er B) b : ebind x f = EOk b -> exists a, x = EOk a /\ f a = EOk b.
Proof. destruct x as [a|u]; cbn; [eauto|discriminate]. Qed.

Definition st0 (js0 : fields) : rst := {| r_pt := 0; r_js := Some js0; r_end := None; r_rule := []; r_log := [] |}.

Lemma normalize_inv fuel e cx msg js0 ok o cx' : normalize fuel e cx msg js0 = EOk (ok, o, cx') ->
  exists s, normalizeRec e cx msg fuel (c_root cx) 0 false (st0 js0) = EOk (ok, s) /\ cx' = apply_log cx (r_log s) /\
    if ok then exists en n o2 o3, r_end s = Some en /\ get_node (c_nodes cx) en = EOk n /\
         (match n_tags n with None => EOk (match r_js s with Some x => x | None => [] end)
          | Some tags => annotate (c_annots cx) tags (obj_add (match r_js s with Some x => x | None => [] end) (L "event.tags") tags) end) = EOk o2 /\
         o3 = (if opt_orig (c_opts cx) then obj_add o2 (L "originalmsg") (JStr msg) else o2) /\
         add_metadata cx n (r_rule s) o3 = EOk o
    else r_pt s <= List.length msg /\
         o = obj_add (obj_add (match r_js s with Some x => x | None => [] end) (L "originalmsg") (JStr msg)) (L "unparsed-data") (JStr (cstr (skipn (r_pt s) msg))).
Proof.
  unfold normalize. fold (st0 js0). intros H. apply ebind_ok in H as ([ok1 s] & H1 & H). cbv zeta in H. destruct ok1.
  - destruct (r_end s) as [en|] eqn:Ee; [|discriminate]. apply ebind_ok in H as (n & H2 & H). apply ebind_ok in H as (o2 & H3 & H).
    apply ebind_ok in H as (o4 & H4 & H). injection H as <- <- <-. exists s. split; auto. split; auto.
    exists en, n, o2. eexists. repeat split; eauto.
  - destruct (Nat.ltb_spec (List.length msg) (r_pt s)); [discriminate|]. injection H as <- <- <-. exists s. auto.
Qed.

(** ** Member lookup *)
Definition member (o : fields) (k : text) (v : json) : Prop := obj_get o k = Some v.
Lemma obj_get_add_same o k v : obj_get (obj_add o k v) k = Some v.
Proof.
  induction o as [|[k' v'] o IH]; cbn [obj_add obj_get]; [rewrite text_eqb_refl; reflexivity|].
  destruct (text_eqb k k') eqn:E; cbn [obj_get]; rewrite E; auto.
Qed.
Lemma obj_get_add_other o k v k' : k <> k' -> obj_get (obj_add o k v) k' = obj_get o k'.
Proof.
  intros Hne. induction o as [|[k2 v2] o IH]; cbn [obj_add obj_get].
  - replace (text_eqb k' k) with false; auto. symmetry. apply text_eqb_false. congruence.
  - destruct (text_eqb k k2) eqn:E; cbn [obj_get].
    + apply text_eqb_true in E. subst k2. replace (text_eqb k' k) with false; auto. symmetry. apply text_eqb_false. congruence.
    + rewrite IH. reflexivity.
Qed.

(** annotations touch only the fields they name *)
Definition op_name (op : aop) : list text := match op with AopAdd (Some n) _ => [cstr n] | _ => [] end.
Definition annot_names (as_ : list annot) : list text := flat_map (fun a => flat_map op_name (snd a)) as_.

Lemma annot_ops_frame ops : forall o o' k, annot_ops ops o = EOk o' -> ~ In k (flat_map op_name ops) -> obj_get o' k = obj_get o k.
Proof.
  induction ops as [|op ops IH]; intros o o' k H Hk; cbn [annot_ops] in H; [injection H as <-; reflexivity|].
  apply ebind_ok in H as (o1 & H1 & H). cbn [flat_map] in Hk. rewrite (IH _ _ _ H) by (intros Hin; apply Hk, in_or_app; auto).
  destruct op as [[n|] [v|]|x]; cbn [annot_op] in H1; try discriminate; injection H1 as <-; [|reflexivity].
  apply obj_get_add_other. intros Hx. apply Hk, in_or_app. left. left. exact Hx.
Qed.
Lemma findAnnot_in as_ tag ops : findAnnot as_ tag = Some ops -> In (tag, ops) as_.
Proof.
  induction as_ as [|[t o] as_ IH]; cbn [findAnnot]; [discriminate|]. destruct (text_eqb t tag) eqn:E; [|right; auto].
  intros [= <-]. apply text_eqb_true in E. subst. left. reflexivity.
Qed.
Lemma annotate_tags_frame as_ : forall tags o o' k, annotate_tags as_ tags o = EOk o' -> ~ In k (annot_names as_) -> obj_get o' k = obj_get o k.
Proof.
  induction tags as [|t tags IH]; intros o o' k H Hk; cbn [annotate_tags] in H; [injection H as <-; reflexivity|].
  apply ebind_ok in H as (o1 & H1 & H). rewrite (IH _ _ _ H Hk). unfold annotateEventWithTag in H1.
  destruct (findAnnot as_ t) as [ops|] eqn:E; [|injection H1 as <-; reflexivity].
  eapply annot_ops_frame; [exact H1|]. intros Hin. apply Hk. unfold annot_names. apply in_flat_map. exists (t, ops). split; [apply findAnnot_in; exact E|exact Hin].
Qed.
Lemma annotate_frame as_ tags o o' k : annotate as_ tags o = EOk o' -> ~ In k (annot_names as_) -> obj_get o' k = obj_get o k.
Proof.
  unfold annotate. destruct as_ as [|a as_]; [intros [= <-]; reflexivity|]. apply annotate_tags_frame.
Qed.
Lemma add_metadata_frame cx n rule o o' k : add_metadata cx n rule o = EOk o' -> k <> L "metadata" -> obj_get o' k = obj_get o k.
Proof.
  unfold add_metadata. intros H Hk. apply ebind_ok in H as (m1 & H1 & H). apply ebind_ok in H as (m2 & H2 & H).
  destruct (m1 ++ m2); injection H as <-; [reflexivity|]. apply obj_get_add_other. auto.
Qed.
Lemma add_metadata_none cx n rule o o' : opt_rule (c_opts cx) = false -> opt_loc (c_opts cx) = false ->
  add_metadata cx n rule o = EOk o' -> o' = o.
Proof. unfold add_metadata. intros -> ->. cbn. intros [= <-]. reflexivity. Qed.

(** ** Success *)
Lemma normalize_success fuel e cx msg js0 o cx' : plain cx (c_root cx) ->
  normalize fuel e cx msg js0 = EOk (true, o, cx') ->
  exists w en rep nr, walk e cx msg false (c_root cx) 0 w en /\
    (forall w' en', walk e cx msg false (c_root cx) 0 w' en' -> before w w') /\
    rep = reported cx msg false (c_root cx) 0 w en /\ node_at cx rep nr /\
    (forall k, k <> L "event.tags" -> k <> L "originalmsg" -> k <> L "metadata" -> ~ In k (annot_names (c_annots cx)) ->
       obj_get o k = obj_get (fields_of js0 w) k) /\
    (n_tags nr = None -> opt_orig (c_opts cx) = false -> opt_rule (c_opts cx) = false -> opt_loc (c_opts cx) = false ->
       o = fields_of js0 w) /\
    (exists o2, add_metadata cx nr (if opt_rule (c_opts cx) then mockup_rev w else []) o2 = EOk o) /\
    (~ In (L "event.tags") (annot_names (c_annots cx)) ->
       obj_get o (L "event.tags") = match n_tags nr with Some tags => Some tags | None => obj_get (fields_of js0 w) (L "event.tags") end) /\
    (opt_orig (c_opts cx) = true -> obj_get o (L "originalmsg") = Some (JStr msg)).
Proof.
  intros Hpl H. apply normalize_inv in H as (s & Hs & _ & en0 & n & o2 & o3 & He & Hn & Ho2 & Ho3 & Ho).
  eapply normalizeRec_spec with (o := js0) in Hs; [|exact Hpl|reflexivity].
  destruct Hs as (w & en & Hw & Hf & Hj & Hend & Hru). rewrite Hj in Ho2. rewrite He in Hend. injection Hend as ->.
  apply get_node_at in Hn.
  exists w, en, (reported cx msg false (c_root cx) 0 w en), n. split; auto. split; auto. split; auto. split; [exact Hn|].
  cbn [r_rule st0 app] in Hru. split; [|split; [|split; [|split]]].
  - intros k K1 K2 K3 K4. rewrite (add_metadata_frame _ _ _ _ _ _ Ho K3). subst o3.
    assert (E3 : obj_get (if opt_orig (c_opts cx) then obj_add o2 (L "originalmsg") (JStr msg) else o2) k = obj_get o2 k).
    { destruct (opt_orig (c_opts cx)); [|reflexivity]. apply obj_get_add_other. auto. }
    rewrite E3. destruct (n_tags n) as [tags|]; [|injection Ho2 as <-; reflexivity].
    rewrite (annotate_frame _ _ _ _ _ Ho2 K4). apply obj_get_add_other. auto.
  - intros T1 T2 T3 T4. rewrite T1 in Ho2. injection Ho2 as <-. rewrite T2 in Ho3. subst o3.
    apply (add_metadata_none _ _ _ _ _ T3 T4 Ho).
  - exists o3. rewrite Hru in Ho. exact Ho.
  - intros Ht. rewrite (add_metadata_frame _ _ _ _ _ (L "event.tags") Ho) by discriminate. subst o3.
    assert (E3 : obj_get (if opt_orig (c_opts cx) then obj_add o2 (L "originalmsg") (JStr msg) else o2) (L "event.tags") = obj_get o2 (L "event.tags")).
    { destruct (opt_orig (c_opts cx)); [|reflexivity]. apply obj_get_add_other. discriminate. }
    rewrite E3. destruct (n_tags n) as [tags|]; [|injection Ho2 as <-; reflexivity].
    rewrite (annotate_frame _ _ _ _ _ Ho2 Ht). apply obj_get_add_same.
  - intros T. rewrite (add_metadata_frame _ _ _ _ _ (L "originalmsg") Ho) by discriminate. subst o3. rewrite T. apply obj_get_add_same.
Qed.

Lemma normalize_failure fuel e cx msg js0 o cx' : plain cx (c_root cx) ->
  normalize fuel e cx msg js0 = EOk (false, o, cx') ->
  (forall w en, ~ walk e cx msg false (c_root cx) 0 w en) /\
  exists k, (k = 0 \/ reaches e cx msg (c_root cx) 0 k) /\ (forall k', reaches e cx msg (c_root cx) 0 k' -> k' <= k) /\ k <= List.length msg /\
    o = set_member (set_member js0 (L "originalmsg") (JStr msg)) (L "unparsed-data") (JStr (cstr (skipn k msg))).
Proof.
  intros Hpl H. apply normalize_inv in H as (s & Hs & _ & Hle & Ho).
  eapply normalizeRec_spec with (o := js0) in Hs; [|exact Hpl|reflexivity].
  destruct Hs as (Hno & Hj & _ & _ & _ & Hpt & Hmax). split; [exact Hno|]. exists (r_pt s). cbn [r_pt st0 r_js] in *.
  rewrite Hj, !obj_add_set in Ho. auto.
Qed.

(** ** What is stored under the given key, when field names are distinct *)
Lemma fields_of_cons o st w : fields_of o (st :: w) = store (p_name (st_prs st)) (st_val st) (fields_of o w).
Proof. reflexivity. Qed.
