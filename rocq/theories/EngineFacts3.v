(** * EngineFacts3: corollaries used by Prop_Engine.v. *)
From Verif Require Import Base Time Parsers Engine EngineSpec EngineSpec2 EngineWf SafetySpec BaseFacts EngineFacts EngineFacts2 EngineGen EngineTotal.
From Coq Require Import ZifyBool ZifyNat ZifyN.

(** ** the reported rule end *)
Definition last_nonempty (w : list step) : Prop :=
  match w with [] => True | st :: w' => st_from (List.last w st) < st_to (List.last w st) end.

Lemma walk_le e cx msg : forall w nd offs en, walk e cx msg false nd offs w en -> offs <= List.length msg /\
  (w <> [] -> last_nonempty w -> offs < List.length msg).
Proof.
  induction w as [|st w IH]; intros nd offs en H; inversion H as [nd' n' offs' Hn' Ht Hc|nd' n offs' i p to v w' en' Hn Hi Ha Hw]; subst.
  - destruct Hc as [->|]; [|discriminate]. split; [lia|congruence].
  - apply IH in Hw as [H1 H2]. assert (offs <= to) by (destruct Ha as (m & k & _ & _ & -> & _); lia). split; [lia|].
    intros _ Hl. destruct w as [|st2 w].
    + cbn in Hl. lia.
    + assert (to < List.length msg); [|lia]. apply H2; [discriminate|]. unfold last_nonempty in *. cbn [List.last] in Hl |- *.
      destruct w as [|st3 w]; [exact Hl|]. replace (List.last (st3 :: w) st2) with (List.last (st3 :: w) {| st_idx := i; st_prs := p; st_from := offs; st_to := to; st_val := v |}); [exact Hl|].
      clear. revert st3. induction w as [|a w IH]; intros st3; [reflexivity|]. cbn [List.last] in *. apply (IH a).
Qed.

Lemma reported_end e cx msg : forall w nd offs en, walk e cx msg false nd offs w en -> last_nonempty w ->
  reported cx msg false nd offs w en = en.
Proof.
  induction w as [|st w IH]; intros nd offs en H Hl; cbn [reported].
  - inversion H; subst. destruct (stops_at cx msg false en offs); reflexivity.
  - pose proof (walk_le _ _ _ _ _ _ _ H) as [_ Hlt]. specialize (Hlt ltac:(discriminate) Hl).
    inversion H as [|nd' n offs' i p to v w' en' Hn Hi Ha Hw]; subst.
    assert (Hs : stops_at cx msg false nd offs = false).
    { unfold stops_at. unfold node_at in Hn. rewrite Hn. destruct (Nat.eqb_spec offs (List.length msg)); [lia|]. apply andb_false_r. }
    rewrite Hs. cbn [st_prs st_to]. apply IH; auto. unfold last_nonempty in *. destruct w as [|st2 w]; [exact I|].
    cbn [List.last] in Hl |- *. destruct w as [|st3 w]; [exact Hl|]. 
    replace (List.last (st3 :: w) st2) with (List.last (st3 :: w) {| st_idx := i; st_prs := p; st_from := offs; st_to := to; st_val := v |}); [exact Hl|].
    clear. revert st3. induction w as [|a w IH]; intros st3; [reflexivity|]. cbn [List.last] in *. apply (IH a).
Qed.

(** ** a stored field is found under its name *)
Definition other_name (nm : text) (st : step) : Prop := p_name (st_prs st) <> Some nm /\ p_name (st_prs st) <> Some (L ".").

Lemma obj_get_app_other o k v k' : k <> k' -> obj_get (o ++ [(k, v)]) k' = obj_get o k'.
Proof.
  intros Hne. induction o as [|[k2 v2] o IH]; cbn [app obj_get].
  - replace (text_eqb k' k) with false; auto. symmetry. apply text_eqb_false. congruence.
  - rewrite IH. reflexivity.
Qed.
Lemma obj_get_app_new o k v : obj_get o k = None -> obj_get (o ++ [(k, v)]) k = Some v.
Proof.
  induction o as [|[k2 v2] o IH]; cbn [app obj_get]; [rewrite text_eqb_refl; auto|]. destruct (text_eqb k k2); [discriminate|auto].
Qed.
Lemma store_other nm st o : other_name nm st -> obj_get (store (p_name (st_prs st)) (st_val st) o) nm = obj_get o nm.
Proof.
  intros [H1 H2]. unfold store. destruct (p_name (st_prs st)) as [n|]; auto. destruct (list_eq_dec ascii_dec n (L ".")); [congruence|].
  assert (n <> nm) by congruence. destruct (st_val st) as [| | | | | |[|[k x] [|? ?]]]; try (apply obj_get_app_other; auto; fail).
  destruct (list_eq_dec ascii_dec k (L "..")); apply obj_get_app_other; auto.
Qed.
Lemma fields_of_other nm o : forall w, Forall (other_name nm) w -> obj_get (fields_of o w) nm = obj_get o nm.
Proof. induction 1 as [|st w H HF IH]; auto. rewrite fields_of_cons, store_other; auto. Qed.
Lemma fields_of_app o w1 w2 : fields_of o (w1 ++ w2) = fields_of (fields_of o w2) w1.
Proof. unfold fields_of. apply fold_right_app. Qed.

(** the value stored for a field with an ordinary name *)
Definition stored_value (v : json) : json :=
  match v with JObj [(k, x)] => if list_eq_dec ascii_dec k (L "..") then x else v | _ => v end.

Lemma fields_of_named nm o w1 st w2 : p_name (st_prs st) = Some nm -> nm <> L "." -> obj_get o nm = None ->
  Forall (other_name nm) (w1 ++ w2) -> obj_get (fields_of o (w1 ++ st :: w2)) nm = Some (stored_value (st_val st)).
Proof.
  intros Hn Hd Ho HF. apply Forall_app in HF as [HF1 HF2]. rewrite fields_of_app, (fields_of_other nm _ _ HF1), fields_of_cons.
  assert (HN : obj_get (fields_of o w2) nm = None) by (rewrite fields_of_other; auto).
  unfold store. rewrite Hn. destruct (list_eq_dec ascii_dec nm (L ".")); [congruence|]. unfold stored_value.
  destruct (st_val st) as [| | | | | |[|[k x] [|? ?]]]; try (apply obj_get_app_new; exact HN).
  destruct (list_eq_dec ascii_dec k (L "..")); apply obj_get_app_new; exact HN.
Qed.

(** ** rule text *)
(** how a step is written in a rule: a literal verbatim, any other field as %name:type% *)
Definition rule_piece (p : prs) : text :=
  match p_kind p with
  | KSimple (MLiteral l) => l
  | k => L "%" ++ (match p_name p with None => L "-" | Some n => n end) ++ L ":" ++ parserName k ++ L "%"
  end.
Definition rule_text (w : list step) : text := flat_map (fun st => rule_piece (st_prs st)) w.

Lemma mockup_piece p : rev (mockup_of p) = rule_piece p.
Proof.
  unfold mockup_of, rule_piece.
  assert (H : forall k, rev (L "%" ++ rev (parserName k) ++ L ":" ++ (match p_name p with None => L "-" | Some n => rev n end) ++ L "%") =
                        L "%" ++ (match p_name p with None => L "-" | Some n => n end) ++ L ":" ++ parserName k ++ L "%").
  { intros k. rewrite !rev_app_distr, rev_involutive. cbn [rev app L]. rewrite <- !app_assoc. cbn. destruct (p_name p) as [n|]; [rewrite rev_involutive|]; reflexivity. }
  destruct (p_kind p) as [m|pn wn pe|ti]; try apply H. destruct m; try apply (H (KSimple _)). apply rev_involutive.
Qed.
Lemma mockup_rule w : rev (mockup_rev w) = rule_text w.
Proof.
  induction w as [|st w IH]; [reflexivity|]. rewrite mockup_rev_cons, rev_app_distr, IH, mockup_piece. reflexivity.
Qed.
Lemma filter_id (l : text) : ~ In NUL l -> filter (fun c => negb (ceq c NUL)) l = l.
Proof.
  induction l as [|c l IH]; intros H; cbn [filter]; auto. unfold ceq at 1. destruct (Ascii.eqb_spec c NUL) as [->|]; [exfalso; apply H; left; reflexivity|].
  cbn [negb]. rewrite IH; auto. intros K. apply H. right. exact K.
Qed.

(** the metadata object *)
Definition metadata (cx : ctx) (n : node) (w : list step) : json :=
  JObj [(L "rule", JObj ((if opt_rule (c_opts cx) then [(L "mockup", JStr (rule_text w))] else []) ++
      (if opt_loc (c_opts cx) then
         match n_file n with Some f => [(L "location", JObj [(L "file", JStr (cstr f)); (L "line", JInt (wrap 32 (Z.of_N (n_line n))))])] | None => [] end
       else [])))].
Lemma add_metadata_value cx n w o o' : ~ In NUL (rule_text w) -> (opt_rule (c_opts cx) || opt_loc (c_opts cx) = true)%bool ->
  add_metadata cx n (if opt_rule (c_opts cx) then mockup_rev w else []) o = EOk o' ->
  obj_get o' (L "metadata") = Some (metadata cx n w).
Proof.
  intros Hnul Hop. unfold add_metadata, metadata. rewrite <- mockup_rule in Hnul. destruct (opt_rule (c_opts cx)).
  - rewrite filter_id by (intros H; apply Hnul, in_rev; rewrite rev_involutive; exact H). destruct (mockup_rev w) as [|c l] eqn:E; [discriminate|]. rewrite <- E, <- mockup_rule. cbn [ebind].
    destruct (opt_loc (c_opts cx)); [destruct (n_file n); [|discriminate]|]; cbn [ebind app]; intros [= <-]; apply obj_get_add_same.
  - cbn in Hop. rewrite Hop. cbn [ebind]. destruct (n_file n); [|discriminate]. cbn [ebind app]. intros [= <-]. apply obj_get_add_same.
Qed.

(** ** Soundness on every graph *)
Lemma gwalk_whole e cx msg : forall w nd offs en last, gwalk e cx msg false nd offs w en last -> last = List.length msg.
Proof.
  induction w as [|st w IH]; intros nd offs en last H; inversion H as [pa nd' n' offs' Hn' Ht Hc|]; subst; [destruct Hc; [auto|discriminate]|eauto].
Qed.
Lemma normalize_sound fuel e cx msg js0 o cx' : normalize fuel e cx msg js0 = EOk (true, o, cx') ->
  exists w en, gwalk e cx msg false (c_root cx) 0 w en (List.length msg) /\
    (forall k, k <> L "event.tags" -> k <> L "originalmsg" -> k <> L "metadata" -> ~ In k (annot_names (c_annots cx)) ->
       obj_get o k = obj_get (fields_of js0 w) k).
Proof.
  intros H. apply normalize_inv in H as (s & Hs & _ & en0 & n & o2 & o3 & He & Hn & Ho2 & Ho3 & Ho).
  apply normalizeRec_sound in Hs. destruct Hs as (w & en & last & Hw & Hj & _ & _). cbn in Hj. rewrite Hj in Ho2.
  exists w, en. pose proof (gwalk_whole _ _ _ _ _ _ _ _ Hw) as ->. split; auto.
  intros k K1 K2 K3 K4. rewrite (add_metadata_frame _ _ _ _ _ _ Ho K3). subst o3.
  assert (E3 : obj_get (if opt_orig (c_opts cx) then obj_add o2 (L "originalmsg") (JStr msg) else o2) k = obj_get o2 k).
  { destruct (opt_orig (c_opts cx)); [|reflexivity]. apply obj_get_add_other. auto. }
  rewrite E3. destruct (n_tags n) as [tags|]; [|injection Ho2 as <-; reflexivity].
  rewrite (annotate_frame _ _ _ _ _ Ho2 K4). apply obj_get_add_other. auto.
Qed.
Lemma normalize_failure_any fuel e cx msg js0 o cx' : normalize fuel e cx msg js0 = EOk (false, o, cx') ->
  exists k, k <= List.length msg /\
    o = set_member (set_member js0 (L "originalmsg") (JStr msg)) (L "unparsed-data") (JStr (cstr (skipn k msg))).
Proof.
  intros H. apply normalize_inv in H as (s & Hs & _ & Hle & Ho). apply normalizeRec_sound in Hs. destruct Hs as [Hj _]. cbn in Hj.
  exists (r_pt s). rewrite Hj, !obj_add_set in Ho. auto.
Qed.
(** Nothing taken beyond the message, nothing twice: on graphs in which every type definition
    and repeated parser takes a step. *)
Lemma normalize_originalmsg fuel e cx msg js0 ok o cx' : normalize fuel e cx msg js0 = EOk (ok, o, cx') ->
  ok = false \/ opt_orig (c_opts cx) = true -> obj_get o (L "originalmsg") = Some (JStr msg).
Proof.
  intros H Hc. apply normalize_inv in H as (s & _ & _ & H). destruct ok.
  - destruct Hc as [|Hc]; [discriminate|]. destruct H as (en & n & o2 & o3 & _ & _ & _ & Ho3 & Ho). rewrite Hc in Ho3.
    rewrite (add_metadata_frame _ _ _ _ _ (L "originalmsg") Ho) by discriminate. subst o3. apply obj_get_add_same.
  - destruct H as [_ ->]. rewrite obj_get_add_other by discriminate. apply obj_get_add_same.
Qed.

(** ** where a delivered member comes from *)
(** the step stores a member named [k] *)
Definition supplies (st : step) (k : text) : Prop :=
  p_name (st_prs st) = Some k \/
  (p_name (st_prs st) = Some (L ".") /\ exists l v, st_val st = JObj l /\ In (k, v) l).

Lemma obj_get_app_some o k v k' : obj_get (o ++ [(k, v)]) k' <> None -> obj_get o k' <> None \/ k = k'.
Proof.
  intros H. destruct (list_eq_dec ascii_dec k k') as [->|Hne]; auto. left. rewrite obj_get_app_other in H; auto.
Qed.
Lemma set_members_some l : forall o k, obj_get (set_members o l) k <> None -> obj_get o k <> None \/ exists v, In (k, v) l.
Proof.
  induction l as [|[k1 v1] l IH]; intros o k H; [auto|]. change (set_members o ((k1, v1) :: l)) with (set_members (set_member o k1 v1) l) in H.
  apply IH in H as [H|[v H]]; [|right; exists v; right; exact H]. rewrite <- obj_add_set in H.
  destruct (list_eq_dec ascii_dec k1 k) as [->|Hne]; [right; exists v1; left; reflexivity|]. rewrite obj_get_add_other in H; auto.
Qed.
Lemma store_some st o k : obj_get (store (p_name (st_prs st)) (st_val st) o) k <> None -> obj_get o k <> None \/ supplies st k.
Proof.
  unfold store, supplies. destruct (p_name (st_prs st)) as [nm|]; auto. destruct (list_eq_dec ascii_dec nm (L ".")) as [->|Hn].
  - destruct (st_val st) as [| | | | | |l] eqn:Ev; intros H; try (apply obj_get_app_some in H as [H|<-]; auto; fail).
    apply set_members_some in H as [H|[v H]]; auto. right. right. split; auto. exists l, v. auto.
  - destruct (st_val st) as [| | | | | |[|[k1 x] [|? ?]]]; intros H; try (apply obj_get_app_some in H as [H|<-]; auto; fail).
    destruct (list_eq_dec ascii_dec k1 (L "..")); (apply obj_get_app_some in H as [H|<-]; auto).
Qed.
Lemma fields_of_some o k : forall w, obj_get (fields_of o w) k <> None -> obj_get o k <> None \/ exists st, In st w /\ supplies st k.
Proof.
  induction w as [|st w IH]; intros H; [auto|]. rewrite fields_of_cons in H. apply store_some in H as [H|H].
  - apply IH in H as [H|(st' & H1 & H2)]; auto. right. exists st'. split; [right|]; auto.
  - right. exists st. split; [left|]; auto.
Qed.

Lemma before_antisym_gen e cx msg partial : forall w w' nd offs en en', walk e cx msg partial nd offs w en -> walk e cx msg partial nd offs w' en' ->
  before w w' -> before w' w -> w = w'.
Proof.
  induction w as [|a w IH]; intros w' nd offs en en' H H' B B'.
  - inversion B'; subst; auto. inversion B.
  - inversion B as [|? ?|? ? b w2 Hl|? ? b w2 Hi Hb]; subst; auto.
    + inversion B'; subst; auto.
    + inversion B' as [| |? ? ? ? Hl'|? ? ? ? Hi' ?]; subst; auto; lia.
    + inversion B' as [| |? ? ? ? Hl'|? ? ? ? Hi' Hb']; subst; auto; [lia|].
      inversion H as [|nd1 n offs1 i p to v w1 en1 Hn Hp Ha Hw]; subst. inversion H' as [|nd1' n' offs1' i' p' to' v' w1' en1' Hn' Hp' Ha' Hw']; subst.
      cbn [st_idx] in Hi. subst i'. rewrite (node_at_fun _ _ _ _ Hn' Hn) in *. rewrite Hp in Hp'. injection Hp' as <-.
      destruct (accepts_fun _ _ _ _ _ _ _ _ Ha Ha') as [<- <-]. f_equal. eapply IH; eauto.
Qed.
Lemma before_antisym e cx msg w w' en en' : walk e cx msg false (c_root cx) 0 w en -> walk e cx msg false (c_root cx) 0 w' en' -> before w w' -> before w' w -> w = w'.
Proof. apply before_antisym_gen. Qed.
Lemma walk_end_node e cx msg partial : forall w nd offs en, walk e cx msg partial nd offs w en -> exists n, node_at cx en n.
Proof. induction w as [|st w IH]; intros nd offs en H; inversion H; subst; eauto. Qed.
Lemma normalize_metadata fuel e cx msg js0 o cx' : plain cx (c_root cx) -> normalize fuel e cx msg js0 = EOk (true, o, cx') ->
  exists w en nr, walk e cx msg false (c_root cx) 0 w en /\
    (forall w' en', walk e cx msg false (c_root cx) 0 w' en' -> before w w') /\
    node_at cx (reported cx msg false (c_root cx) 0 w en) nr /\
    (last_nonempty w -> node_at cx en nr) /\
    (opt_rule (c_opts cx) || opt_loc (c_opts cx) = true -> ~ In NUL (rule_text w) ->
       obj_get o (L "metadata") = Some (metadata cx nr w))%bool /\
    (opt_rule (c_opts cx) = false -> opt_loc (c_opts cx) = false -> ~ In (L "metadata") (annot_names (c_annots cx)) ->
       obj_get o (L "metadata") = obj_get (fields_of js0 w) (L "metadata")).
Proof.
  intros Hp H0. pose proof H0 as H. apply normalize_inv in H as (s & Hs & _ & en0 & n & o2 & o3 & He & Hn & Ho2 & Ho3 & Ho).
  eapply normalizeRec_spec with (o := js0) in Hs; [|exact Hp|reflexivity].
  destruct Hs as (w & en & Hw & Hf & Hj & Hend & Hru). rewrite Hj in Ho2. rewrite He in Hend. injection Hend as ->.
  apply get_node_at in Hn. cbn [r_rule st0 app] in Hru.
  exists w, en, n. split; auto. split; auto. split; auto. split.
  { intros Hl. rewrite (reported_end _ _ _ _ _ _ _ Hw Hl) in Hn. exact Hn. }
  split.
  - intros Hop Hnul. rewrite Hru in Ho. eapply add_metadata_value; eauto.
  - intros H1 H2 Hk. rewrite (add_metadata_none _ _ _ _ _ H1 H2 Ho). subst o3.
    assert (E3 : obj_get (if opt_orig (c_opts cx) then obj_add o2 (L "originalmsg") (JStr msg) else o2) (L "metadata") = obj_get o2 (L "metadata")).
    { destruct (opt_orig (c_opts cx)); [|reflexivity]. apply obj_get_add_other. discriminate. }
    rewrite E3. destruct (n_tags n) as [tags|]; [|injection Ho2 as <-; reflexivity].
    rewrite (annotate_frame _ _ _ _ _ Ho2 Hk). apply obj_get_add_other. discriminate.
Qed.
Lemma first_custom_ub e cx msg f nd n p ps ti nm tn offs partial s u : node_at cx nd n -> n_parsers n = p :: ps -> p_kind p = KCustom ti ->
  nth_error (c_types cx) ti = Some (nm, tn) -> (forall s', normalizeRec e cx msg f tn offs true s' = EUb u) ->
  normalizeRec e cx msg (S f) nd offs partial s = EUb u.
Proof.
  intros Hn Hps Hk Ht H. cbn [normalizeRec]. unfold norm_step. unfold get_node. rewrite Hn. cbn [ebind]. rewrite Hps. cbn [parser_loop].
  unfold tryParser at 1. rewrite Hk, Ht, H. reflexivity.
Qed.
Lemma first_repeat_ub e cx msg f nd n p ps pn wn permit offs partial s0 u : node_at cx nd n -> n_parsers n = p :: ps -> p_kind p = KRepeat pn wn permit ->
  (forall s, r_pt s = r_pt s0 -> repeat_loop (normalizeRec e cx msg f) f pn wn permit offs offs None s = EUb u) ->
  normalizeRec e cx msg (S f) nd offs partial s0 = EUb u.
Proof.
  intros Hn Hps Hk H. cbn [normalizeRec]. unfold norm_step. unfold get_node. rewrite Hn. cbn [ebind]. rewrite Hps. cbn [parser_loop].
  unfold tryParser at 1. rewrite Hk, H; reflexivity.
Qed.
