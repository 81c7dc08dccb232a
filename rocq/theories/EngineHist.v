(** * EngineHist: normalizing has no memory (statistics counters aside). *)
From Verif Require Import Base Time Parsers Engine EngineFacts2.
From Coq Require Import ZifyBool ZifyNat ZifyN.

(** Equal up to the statistics counters. *)
Definition same_node (n n' : node) : Prop :=
  n_parsers n = n_parsers n' /\ n_term n = n_term n' /\ n_tags n = n_tags n' /\ n_refcnt n = n_refcnt n' /\
  n_file n = n_file n' /\ n_line n = n_line n'.
Definition same_slot (a b : option node) : Prop :=
  match a, b with Some n, Some n' => same_node n n' | None, None => True | _, _ => False end.
Definition same_ctx (c c' : ctx) : Prop :=
  Forall2 same_slot (c_nodes c) (c_nodes c') /\ c_root c = c_root c' /\ c_types c = c_types c' /\ c_annots c = c_annots c' /\
  c_prefix c = c_prefix c' /\ c_opts c = c_opts c' /\ c_version c = c_version c' /\ c_file c = c_file c' /\ c_line c = c_line c'.

Lemma same_node_refl n : same_node n n. Proof. repeat split. Qed.
Lemma same_node_trans a b c : same_node a b -> same_node b c -> same_node a c.
Proof. unfold same_node. intuition congruence. Qed.
Lemma same_slot_refl a : same_slot a a. Proof. destruct a; cbn; auto using same_node_refl. Qed.
Lemma same_slot_trans a b c : same_slot a b -> same_slot b c -> same_slot a c.
Proof. destruct a, b, c; cbn; try tauto. apply same_node_trans. Qed.
Lemma F2_refl h : Forall2 same_slot h h. Proof. induction h; constructor; auto using same_slot_refl. Qed.
Lemma F2_trans : forall a b c, Forall2 same_slot a b -> Forall2 same_slot b c -> Forall2 same_slot a c.
Proof.
  induction a as [|x a IH]; intros b c H1 H2; inversion H1; subst; inversion H2; subst; constructor; eauto using same_slot_trans.
Qed.
Lemma same_ctx_refl c : same_ctx c c. Proof. split; [apply F2_refl|repeat split]. Qed.
Lemma same_ctx_trans a b c : same_ctx a b -> same_ctx b c -> same_ctx a c.
Proof. intros (H1 & H2) (H3 & H4). split; [eapply F2_trans; eauto|]. intuition congruence. Qed.

Lemma bump_same h i b : Forall2 same_slot h (upd_node h i (fun n => bump n b)).
Proof.
  unfold upd_node. revert i. induction h as [|x h IH]; intros [|i]; cbn; constructor; auto using same_slot_refl, F2_refl.
  destruct x; cbn; auto. repeat split.
Qed.
Lemma apply_log_same cx log : same_ctx cx (apply_log cx log).
Proof.
  split; [|repeat split]. unfold apply_log, set_nodes. cbn [c_nodes]. generalize (c_nodes cx). induction (rev log) as [|[i b] l IH]; intros h; cbn [fold_left]; [apply F2_refl|].
  eapply F2_trans; [|apply IH]. apply bump_same.
Qed.

Section Same.
Variables (e : env) (c c' : ctx) (msg : text).
Hypothesis HS : same_ctx c c'.

Lemma get_node_same i : match get_node (c_nodes c) i, get_node (c_nodes c') i with
  | EOk n, EOk n' => same_node n n' | EUb u, EUb u' => u = u' | _, _ => False end.
Proof.
  destruct HS as [HF _]. unfold get_node. revert i. induction HF as [|x y l l' Hxy HF IH]; intros [|i]; cbn [nth_error]; auto.
  - destruct x, y; cbn in Hxy; tauto.
  - apply IH.
Qed.

Lemma repeat_loop_ext rec rec' : (forall nd o p s, rec nd o p s = rec' nd o p s) ->
  forall f pn wn permit strt lkg arr s, repeat_loop rec f pn wn permit strt lkg arr s = repeat_loop rec' f pn wn permit strt lkg arr s.
Proof.
  intros Hr. induction f as [|f IH]; intros; cbn [repeat_loop]; auto. rewrite Hr.
  destruct (rec' pn _ _ _) as [[ok s1]|u]; cbn [ebind]; auto. destruct (negb ok); auto. rewrite Hr.
  destruct (rec' wn _ _ _) as [[ok2 s2]|u]; cbn [ebind]; auto. destruct ok2; auto.
Qed.
Lemma tryParser_same rec rec' rf p offs s : (forall nd o p s, rec nd o p s = rec' nd o p s) ->
  tryParser e c msg rec rf p offs s = tryParser e c' msg rec' rf p offs s.
Proof.
  intros Hr. unfold tryParser. destruct (p_kind p); auto.
  - erewrite repeat_loop_ext by exact Hr. reflexivity.
  - destruct HS as (_ & _ & <- & _). destruct (nth_error (c_types c) ti) as [[? ?]|]; auto. rewrite Hr. reflexivity.
Qed.
Lemma parser_loop_same rec rec' rf nd : (forall nd o p s, rec nd o p s = rec' nd o p s) -> forall ps offs partial lpt s,
  parser_loop e c msg rec rf nd ps offs partial lpt s = parser_loop e c' msg rec' rf nd ps offs partial lpt s.
Proof.
  intros Hr. induction ps as [|p ps IH]; intros; cbn [parser_loop]; auto. rewrite (tryParser_same rec rec') by exact Hr.
  destruct (tryParser e c' msg rec' rf p offs s) as [[[[pos v]|] s1]|u]; cbn [ebind]; auto.
  rewrite Hr. destruct (rec' _ _ _ _) as [[ok s2]|u]; cbn [ebind]; auto. destruct ok; auto.
  destruct HS as (_ & _ & _ & _ & _ & Ho & _). rewrite Ho. reflexivity.
Qed.
Lemma normalizeRec_same : forall fuel nd offs partial s,
  normalizeRec e c msg fuel nd offs partial s = normalizeRec e c' msg fuel nd offs partial s.
Proof.
  induction fuel as [|f IH]; intros; cbn [normalizeRec]; auto. unfold norm_step. pose proof (get_node_same nd) as Hn.
  destruct (get_node (c_nodes c) nd) as [n|u], (get_node (c_nodes c') nd) as [n'|u']; cbn [ebind]; try tauto; [|congruence].
  destruct Hn as (-> & -> & _). rewrite (parser_loop_same _ _ f nd IH). reflexivity.
Qed.
Definition visible (r : er (bool * fields * ctx)) : er (bool * fields) :=
  match r with EOk (ok, o, _) => EOk (ok, o) | EUb u => EUb u end.
Lemma normalize_same fuel js0 : visible (normalize fuel e c msg js0) = visible (normalize fuel e c' msg js0).
Proof.
  unfold normalize. destruct HS as (_ & Hr & _ & Ha & _ & Ho & _). rewrite <- Hr, normalizeRec_same.
  destruct (normalizeRec e c' msg fuel (c_root c) 0 false _) as [[ok s]|u]; cbn [ebind]; auto. destruct ok.
  - destruct (r_end s) as [en|]; auto. pose proof (get_node_same en) as Hn.
    destruct (get_node (c_nodes c) en) as [n|u], (get_node (c_nodes c') en) as [n'|u']; cbn [ebind]; try tauto; [|cbn; congruence].
    destruct Hn as (_ & _ & Ht & _ & Hf & Hl). rewrite Ht, Ha, Ho.
    match goal with |- visible (ebind ?x _) = visible (ebind ?x _) => destruct x; cbn [ebind visible]; auto end.
    unfold add_metadata. rewrite Ho, Hf, Hl.
    match goal with |- visible (ebind ?x _) = visible (ebind ?x _) => destruct x as [o2|u]; cbn [ebind visible]; auto end.
  - destruct (Nat.ltb _ _); reflexivity.
Qed.
End Same.

(** A history of calls: each with its message and the caller's object. *)
Fixpoint history (fuel : nat) (e : env) (cx : ctx) (ms : list (text * fields)) : er ctx :=
  match ms with
  | [] => EOk cx
  | (m, js) :: ms' => do* (ok, o, cx') := normalize fuel e cx m js in history fuel e cx' ms'
  end.
Lemma history_same fuel e : forall ms cx cx', history fuel e cx ms = EOk cx' -> same_ctx cx cx'.
Proof.
  induction ms as [|[m js] ms IH]; intros cx cx' H; cbn [history] in H; [injection H as <-; apply same_ctx_refl|].
  apply ebind_ok in H as ([[ok o] cx1] & H1 & H). apply IH in H. apply normalize_inv in H1 as (s & _ & -> & _).
  eapply same_ctx_trans; [apply apply_log_same|exact H].
Qed.
Lemma normalize_no_memory fuel fuel' e cx cx' ms msg js0 : history fuel e cx ms = EOk cx' ->
  visible (normalize fuel' e cx' msg js0) = visible (normalize fuel' e cx msg js0).
Proof. intros H. symmetry. apply normalize_same. eapply history_same; exact H. Qed.
