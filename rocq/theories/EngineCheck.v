(** * EngineCheck: a checker for [graph_ok], [report_ok], [plain]; used to show that concrete
      rulebases meet the hypotheses. *)
From Verif Require Import Base Parsers Engine EngineSpec EngineWf SafetySpec EngineTotal.
From Coq Require Import ZifyBool ZifyNat ZifyN.

Section Check.
Variable cx : ctx.
Definition node_b (i : nat) : option node := match nth_error (c_nodes cx) i with Some (Some n) => Some n | _ => None end.
Lemma node_b_at i n : node_b i = Some n <-> node_at cx i n.
Proof. unfold node_b, node_at. destruct (nth_error (c_nodes cx) i) as [[m|]|]; split; intros; congruence. Qed.

Definition valid_b i := match node_b i with Some _ => true | None => false end.
Definition starter_b i := match node_b i with Some n => negb (n_term n) | None => false end.
Fixpoint prod_b (f i : nat) : bool :=
  match f with
  | O => false
  | S f => match node_b i with
           | None => false
           | Some n => negb (n_term n) && forallb (fun p =>
               match p_kind p with
               | KSimple m => consuming m
               | KCustom ti => match nth_error (c_types cx) ti with Some (_, tn) => prod_b f tn | None => false end
               | KRepeat pn _ permit => negb permit && prod_b f pn
               end) (n_parsers n)
           end
  end%bool.
Fixpoint silent_b (f i : nat) : bool :=
  match f with
  | O => false
  | S f => match node_b i with
           | None => true
           | Some n => forallb (fun p => match p_name p with None => silent_b f (p_child p) | Some _ => false end) (n_parsers n)
           end
  end.
Fixpoint plain_b (f i : nat) : bool :=
  match f with
  | O => false
  | S f => match node_b i with
           | None => true
           | Some n => forallb (fun p => match p_kind p with KSimple _ => plain_b f (p_child p) | _ => false end) (n_parsers n)
           end
  end.
Fixpoint rank_b (f i : nat) : nat :=
  match f with
  | O => O
  | S f => match node_b i with
           | None => O
           | Some n => S (list_max (map (fun p => Nat.max (rank_b f (p_child p))
               match p_kind p with
               | KSimple _ => O
               | KCustom ti => match nth_error (c_types cx) ti with Some (_, tn) => rank_b f tn | None => O end
               | KRepeat pn wn _ => Nat.max (rank_b f pn) (rank_b f wn)
               end) (n_parsers n)))
           end
  end.
Definition is_cee (m : motif) : bool := match m with MCee => true | _ => false end.
Definition field_okb (rk : nat -> nat) (r : nat) (p : prs) : bool :=
  valid_b (p_child p) && Nat.ltb (rk (p_child p)) r &&
  match p_kind p with
  | KSimple m => negb (is_cee m)
  | KCustom ti => match nth_error (c_types cx) ti with Some (_, tn) => starter_b tn && Nat.ltb (rk tn) r | None => false end
  | KRepeat pn wn _ => starter_b pn && Nat.ltb (rk pn) r && prod_b 20 wn && Nat.ltb (rk wn) r && silent_b 20 wn
  end%bool.
Definition graph_okb (rk : nat -> nat) : bool :=
  valid_b (c_root cx) && forallb (fun i => match node_b i with Some n => forallb (field_okb rk (rk i)) (n_parsers n) | None => true end)
                            (seq 0 (List.length (c_nodes cx))).

Lemma valid_b_ok i : valid_b i = true -> valid cx i.
Proof. unfold valid_b. destruct (node_b i) as [n|] eqn:E; [|discriminate]. exists n. apply node_b_at. exact E. Qed.
Lemma starter_b_ok i : starter_b i = true -> starter cx i.
Proof. unfold starter_b. destruct (node_b i) as [n|] eqn:E; [|discriminate]. intros H. exists n. split; [apply node_b_at; exact E|]. destruct (n_term n); auto; discriminate. Qed.
Lemma prod_b_ok : forall f i, prod_b f i = true -> productive cx i.
Proof.
  induction f as [|f IH]; intros i H; cbn [prod_b] in H; [discriminate|]. destruct (node_b i) as [n|] eqn:E; [|discriminate].
  apply andb_true_iff in H as [H1 H2]. apply (prod_node cx i n); [apply node_b_at; exact E|destruct (n_term n); auto; discriminate|].
  apply Forall_forall. intros p Hp. rewrite forallb_forall in H2. specialize (H2 p Hp). destruct (p_kind p) as [m|pn wn pe|ti] eqn:Ek.
  - eapply pp_simple; eauto.
  - apply andb_true_iff in H2 as [H2 H3]. destruct pe; [discriminate|]. eapply pp_repeat; eauto.
  - destruct (nth_error (c_types cx) ti) as [[nm tn]|] eqn:Et; [|discriminate]. eapply pp_custom; eauto.
Qed.
Lemma silent_b_ok : forall f i, silent_b f i = true -> silent cx i.
Proof.
  assert (H : forall i b, reach_node cx i b -> forall f, silent_b f i = true -> exists f', silent_b f' b = true).
  { induction 1 as [a|a n p b Hn Hp Hr IH]; intros f Hf; [eauto|]. destruct f as [|f]; [discriminate|]. cbn [silent_b] in Hf.
    apply node_b_at in Hn. rewrite Hn in Hf. rewrite forallb_forall in Hf. specialize (Hf p Hp). destruct (p_name p); [discriminate|]. eauto. }
  intros f i Hf b n Hr Hn. destruct (H i b Hr f Hf) as [[|f'] Hf']; [discriminate|]. cbn [silent_b] in Hf'. apply node_b_at in Hn. rewrite Hn in Hf'.
  apply Forall_forall. intros p Hp. rewrite forallb_forall in Hf'. specialize (Hf' p Hp). destruct (p_name p); [discriminate|reflexivity].
Qed.
Lemma plain_b_ok : forall f i, plain_b f i = true -> plain cx i.
Proof.
  assert (H : forall i b, reach_node cx i b -> forall f, plain_b f i = true -> exists f', plain_b f' b = true).
  { induction 1 as [a|a n p b Hn Hp Hr IH]; intros f Hf; [eauto|]. destruct f as [|f]; [discriminate|]. cbn [plain_b] in Hf.
    apply node_b_at in Hn. rewrite Hn in Hf. rewrite forallb_forall in Hf. specialize (Hf p Hp). destruct (p_kind p); try discriminate. eauto. }
  intros f i Hf b n Hr Hn. destruct (H i b Hr f Hf) as [[|f'] Hf']; [discriminate|]. cbn [plain_b] in Hf'. apply node_b_at in Hn. rewrite Hn in Hf'.
  apply Forall_forall. intros p Hp. rewrite forallb_forall in Hf'. specialize (Hf' p Hp). unfold simple. destruct (p_kind p); try discriminate. eauto.
Qed.
Lemma field_okb_ok rk r p : field_okb rk r p = true -> field_ok cx rk r p.
Proof.
  unfold field_okb. intros H. apply andb_true_iff in H as [H H3]. apply andb_true_iff in H as [H1 H2].
  split; [apply valid_b_ok; auto|]. split; [lia|]. destruct (p_kind p) as [m|pn wn pe|ti].
  - destruct m; cbn in H3; congruence.
  - repeat match goal with HH : (_ && _)%bool = true |- _ => apply andb_true_iff in HH as [? ?] end.
    split; [apply starter_b_ok; auto|]. split; [lia|]. split; [eapply prod_b_ok; eauto|]. split; [lia|eapply silent_b_ok; eauto].
  - destruct (nth_error (c_types cx) ti) as [[nm tn]|]; [|discriminate]. apply andb_true_iff in H3 as [H3 H4]. exists nm, tn.
    split; auto. split; [apply starter_b_ok; auto|lia].
Qed.
Lemma graph_okb_ok rk : graph_okb rk = true -> graph_ok cx rk.
Proof.
  unfold graph_okb. intros H. apply andb_true_iff in H as [H1 H2]. split; [apply valid_b_ok; auto|]. intros i n Hn.
  rewrite forallb_forall in H2. assert (Hi : In i (seq 0 (List.length (c_nodes cx)))).
  { apply in_seq. split; [lia|]. apply nth_error_Some. unfold node_at in Hn. rewrite Hn. discriminate. }
  specialize (H2 i Hi). apply node_b_at in Hn. rewrite Hn in H2. apply Forall_forall. intros p Hp. rewrite forallb_forall in H2. apply field_okb_ok, H2, Hp.
Qed.

(** no annotations, no metadata options *)
Lemma report_ok_plain : c_annots cx = [] -> opt_rule (c_opts cx) = false -> opt_loc (c_opts cx) = false -> report_ok cx.
Proof. intros H0 H1 H2. split; [rewrite H0; intros ? ? ? []|]. split; congruence. Qed.

Definition m_okb (m : motif) (want : bool) : bool := match m with MOpQuoted => want | MNoData _ => false | _ => true end.
Definition usable_b : bool :=
  forallb (fun i => match node_b i with
     | Some n => forallb (fun p => match p_kind p with KSimple m => m_okb m (named p) | _ => true end) (n_parsers n) | None => true end)
     (seq 0 (List.length (c_nodes cx))).
Lemma usable_b_ok : usable_b = true -> fields_usable cx.
Proof.
  unfold usable_b. intros H p m (i & n & Hn & Hp) Hk. rewrite forallb_forall in H. assert (Hi : In i (seq 0 (List.length (c_nodes cx)))).
  { apply in_seq. split; [lia|]. apply nth_error_Some. unfold node_at in Hn. rewrite Hn. discriminate. }
  specialize (H i Hi). apply node_b_at in Hn. rewrite Hn in H. rewrite forallb_forall in H. specialize (H p Hp). rewrite Hk in H.
  destruct m; cbn in *; auto; discriminate.
Qed.
End Check.
