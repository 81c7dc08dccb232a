(** * OwnFacts: every operation on JSON objects keeps the counts exact. *)
From Verif Require Import Base BaseFacts Time Parsers Engine EngineFacts2 Own OwnSpec.

Lemma times_app x a b : times x (a ++ b) = times x a + times x b.
Proof. unfold times. apply count_occ_app. Qed.
Definition is1 (y x : nat) : nat := if Nat.eq_dec y x then 1 else 0.
Lemma times_cons x y l : times x (y :: l) = is1 y x + times x l.
Proof. unfold times, is1. cbn. destruct (Nat.eq_dec y x); lia. Qed.
Lemma times_nil x : times x [] = 0. Proof. reflexivity. Qed.
Lemma is1_refl x : is1 x x = 1. Proof. unfold is1. destruct (Nat.eq_dec x x); congruence. Qed.
Lemma is1_ne x y : x <> y -> is1 x y = 0. Proof. unfold is1. destruct (Nat.eq_dec x y); congruence. Qed.
Lemma times_in x l : In x l <-> 1 <= times x l.
Proof. unfold times. rewrite (count_occ_In Nat.eq_dec). lia. Qed.
Ltac tm := repeat progress (rewrite ?times_app, ?times_cons, ?times_nil in *).

Lemma exact_ext h R R' : exact h R -> (forall x, times x R = times x R') -> exact h R'.
Proof. intros (H1 & H2) H. split; auto. intros x. rewrite <- H. auto. Qed.

Lemma nth_upd {A} (l : list A) i f x : nth_error (upd_nth l i f) x = if Nat.eqb i x then option_map f (nth_error l x) else nth_error l x.
Proof. revert i x. induction l as [|a l IH]; intros [|i] [|x]; cbn; auto. destruct (Nat.eqb i x); auto. Qed.
Lemma jset_nth h i o x : nth_error (jset h i o) x = if Nat.eqb i x then option_map (fun _ => o) (nth_error h x) else nth_error h x.
Proof. apply nth_upd. Qed.

Definition kids (s : option jobj) : list nat := match s with Some o => children (j_cell o) | None => [] end.
Lemma refs_set : forall h i s0 s y, nth_error h i = Some s0 -> times y (refs (jset h i s)) + times y (kids s0) = times y (refs h) + times y (kids s).
Proof.
  unfold jset, refs. induction h as [|a h IH]; intros [|i] s0 s y H; cbn [nth_error upd_nth flat_map] in *; try discriminate.
  - injection H as ->. fold (kids s0) (kids s). tm. lia.
  - specialize (IH _ _ s y H). fold (kids a). tm. lia.
Qed.
Lemma refs_app h h' : refs (h ++ h') = refs h ++ refs h'. Proof. apply flat_map_app. Qed.
Lemma rc_set h i o s0 x : nth_error h i = Some s0 -> rc_of (jset h i o) x = if Nat.eqb i x then match o with Some o => j_rc o | None => 0 end else rc_of h x.
Proof. intros H. unfold rc_of. rewrite jset_nth. destruct (Nat.eqb_spec i x) as [->|]; auto. rewrite H. cbn. destruct o; auto. Qed.
Lemma jget_ok h x o : jget h x = EOk o <-> nth_error h x = Some (Some o).
Proof. unfold jget. destruct (nth_error h x) as [[o'|]|]; split; intros H; try discriminate; congruence. Qed.

(** In an exact heap whatever is referred to is alive. *)
Lemma held_alive h R x : exact h R -> In x (refs h) \/ In x R -> exists o, jget h x = EOk o /\ nth_error h x = Some (Some o) /\ 1 <= j_rc o.
Proof.
  intros (H1 & _) H. specialize (H1 x). rewrite !times_in in H. assert (Hr : 1 <= rc_of h x) by lia. unfold rc_of in Hr.
  unfold jget. destruct (nth_error h x) as [[o|]|]; try lia. eauto.
Qed.
Lemma refs_in h x y o : nth_error h x = Some (Some o) -> In y (children (j_cell o)) -> In y (refs h).
Proof. intros H Hy. unfold refs. apply in_flat_map. exists (Some o). split; auto. eapply nth_error_In; exact H. Qed.

(** One slot changed. *)
Lemma exact_set h R R' i o s' : exact h R -> nth_error h i = Some (Some o) ->
  (forall x, rc_of (jset h i s') x = times x (refs (jset h i s')) + times x R') ->
  (forall o', s' = Some o' -> 1 <= j_rc o') -> exact (jset h i s') R'.
Proof.
  intros (H1 & H2) Hi Hc Hp. split; auto. intros x (o' & Hx). rewrite jset_nth in Hx. unfold rc_of. rewrite jset_nth.
  destruct (Nat.eqb_spec i x) as [<-|Hn].
  - rewrite Hi in Hx |- *. cbn in Hx |- *. injection Hx as ->. auto.
  - rewrite Hx. specialize (H2 x). unfold rc_of in H2. rewrite Hx in H2. apply H2. exists o'. exact Hx.
Qed.
Lemma set_cell h R i o c : exact h (children c ++ R) -> nth_error h i = Some (Some o) ->
  exact (jset h i (Some {| j_rc := j_rc o; j_cell := c |})) (children (j_cell o) ++ R).
Proof.
  intros HE Hi. eapply exact_set; [exact HE|exact Hi| |].
  - intros x. rewrite (rc_set _ _ _ _ _ Hi). pose proof (refs_set h i _ (Some {| j_rc := j_rc o; j_cell := c |}) x Hi) as HR. cbn [kids j_cell] in HR.
    destruct HE as (H1 & _). specialize (H1 x). tm. unfold rc_of in *. destruct (Nat.eqb_spec i x) as [<-|]; cbn [j_rc]; [rewrite Hi in H1; lia|lia].
  - intros o' [= <-]. cbn. destruct HE as (_ & H2). specialize (H2 i). unfold rc_of in H2. rewrite Hi in H2. apply H2. eexists; exact Hi.
Qed.
Lemma set_rc h R i o : exact h R -> nth_error h i = Some (Some o) ->
  exact (jset h i (Some {| j_rc := S (j_rc o); j_cell := j_cell o |})) (i :: R).
Proof.
  intros HE Hi. eapply exact_set; [exact HE|exact Hi| |].
  - intros x. rewrite (rc_set _ _ _ _ _ Hi). pose proof (refs_set h i _ (Some {| j_rc := S (j_rc o); j_cell := j_cell o |}) x Hi) as HR. cbn [kids j_cell] in HR.
    destruct HE as (H1 & _). specialize (H1 x). tm. unfold rc_of in *. destruct (Nat.eqb_spec i x) as [<-|Hn]; cbn [j_rc].
    + rewrite Hi in H1. rewrite is1_refl. lia.
    + rewrite is1_ne by auto. lia.
  - intros o' [= <-]. cbn. lia.
Qed.
Lemma dec_rc h R i o : exact h (i :: R) -> nth_error h i = Some (Some o) -> 2 <= j_rc o ->
  exact (jset h i (Some {| j_rc := pred (j_rc o); j_cell := j_cell o |})) R.
Proof.
  intros HE Hi H2. eapply exact_set; [exact HE|exact Hi| |].
  - intros x. rewrite (rc_set _ _ _ _ _ Hi). pose proof (refs_set h i _ (Some {| j_rc := pred (j_rc o); j_cell := j_cell o |}) x Hi) as HR. cbn [kids j_cell] in HR.
    destruct HE as (H1 & _). specialize (H1 x). tm. unfold rc_of in *. destruct (Nat.eqb_spec i x) as [<-|Hn]; cbn [j_rc].
    + rewrite Hi in H1. rewrite is1_refl in H1. lia.
    + rewrite is1_ne in H1 by auto. lia.
  - intros o' [= <-]. cbn. lia.
Qed.
Lemma free_obj h R i o : exact h (i :: R) -> nth_error h i = Some (Some o) -> j_rc o <= 1 ->
  exact (jset h i None) (children (j_cell o) ++ R).
Proof.
  intros HE Hi H2. eapply exact_set; [exact HE|exact Hi| |discriminate].
  intros x. rewrite (rc_set _ _ _ _ _ Hi). pose proof (refs_set h i _ None x Hi) as HR. cbn [kids] in HR.
  destruct HE as (H1 & _). specialize (H1 x). tm. unfold rc_of in *. destruct (Nat.eqb_spec i x) as [<-|Hn].
  - rewrite Hi in H1. rewrite is1_refl in H1. lia.
  - rewrite is1_ne in H1 by auto. lia.
Qed.

(** ** The operations *)
Lemma jalloc_exact h R c i h' : exact h (children c ++ R) -> jalloc h c = (i, h') -> exact h' (i :: R).
Proof.
  intros (H1 & H2) [= <- <-]. unfold jalloc. split.
  - intros x. specialize (H1 x). rewrite refs_app. cbn [refs flat_map j_cell]. rewrite app_nil_r. tm. unfold rc_of in *.
    destruct (Nat.lt_trichotomy x (List.length h)) as [Hl|[->|Hl]].
    + rewrite nth_error_app1 by auto. rewrite is1_ne by lia. lia.
    + rewrite nth_error_app2, Nat.sub_diag by auto. cbn. rewrite is1_refl.
      assert (E0 : nth_error h (List.length h) = None) by (apply nth_error_None; lia). rewrite E0 in H1. lia.
    + assert (E0 : nth_error h x = None) by (apply nth_error_None; lia). rewrite E0 in H1.
      assert (E1 : nth_error (h ++ [Some {| j_rc := 1; j_cell := c |}]) x = None) by (apply nth_error_None; rewrite app_length; cbn; lia).
      rewrite E1, is1_ne by lia. lia.
  - intros x (o & Hx). unfold rc_of. rewrite Hx. destruct (Nat.lt_ge_cases x (List.length h)) as [Hl|Hl].
    + rewrite nth_error_app1 in Hx by auto. specialize (H2 x (ex_intro _ o Hx)). unfold rc_of in H2. rewrite Hx in H2. exact H2.
    + rewrite nth_error_app2 in Hx by auto. destruct (x - List.length h) as [|[|]]; cbn in Hx; try discriminate. injection Hx as <-. cbn. lia.
Qed.
Lemma jref_exact h R x : exact h R -> (forall i, x = Some i -> In i (refs h) \/ In i R) -> exists h', jref h x = EOk h' /\ exact h' (opt_list x ++ R).
Proof.
  intros HE Hx. destruct x as [i|]; cbn [jref opt_list app]; [|eauto].
  destruct (held_alive h R i HE (Hx _ eq_refl)) as (o & Hg & Hn & _). rewrite Hg. cbn [ebind]. eexists. split; [reflexivity|]. apply set_rc; auto.
Qed.

Lemma total_set : forall h i o s', nth_error h i = Some (Some o) -> total_rc (jset h i s') + j_rc o = total_rc h + match s' with Some o' => j_rc o' | None => 0 end.
Proof.
  unfold total_rc, jset. induction h as [|a h IH]; intros [|i] o s' H; cbn in *; fold list_sum in *; unfold list_sum in *; try discriminate.
  - injection H as ->. lia.
  - specialize (IH _ _ s' H). lia.
Qed.
Lemma jputs_exact : forall fuel h w R, exact h (w ++ R) -> total_rc h < fuel -> exists h', jputs fuel h w = EOk h' /\ exact h' R.
Proof.
  induction fuel as [|f IH]; intros h [|i w] R HE Hf; cbn [jputs]; try lia; [eauto|].
  destruct (held_alive h _ i HE) as (o & Hg & Hn & Hp); [right; left; reflexivity|]. rewrite Hg. cbn [ebind].
  pose proof (total_set h i o) as HT. destruct (Nat.leb_spec (j_rc o) 1) as [H1|H1].
  - apply IH.
    + cbn [app] in HE. rewrite <- app_assoc. eapply free_obj; eauto.
    + specialize (HT None Hn). cbn beta iota in HT. lia.
  - apply IH.
    + cbn [app] in HE. eapply dec_rc; eauto.
    + specialize (HT (Some {| j_rc := pred (j_rc o); j_cell := j_cell o |}) Hn). cbn in HT. lia.
Qed.
Lemma jput_exact h R x : exact h (opt_list x ++ R) -> exists h', jput h x = EOk h' /\ exact h' R.
Proof. intros HE. apply jputs_exact; auto. Qed.

Lemma set_member_kids k v : forall ms ms' old, set_member ms k v = (ms', old) -> forall x,
  times x (children (CObj ms')) + match old with Some o => times x (opt_list o) | None => 0 end = times x (children (CObj ms)) + times x (opt_list v).
Proof.
  induction ms as [|[k' v'] ms IH]; intros ms' old H x; cbn [set_member] in H.
  - injection H as <- <-. cbn [children flat_map snd]. tm. lia.
  - destruct (text_eqb k' k).
    + injection H as <- <-. cbn [children flat_map snd]. tm. lia.
    + destruct (set_member ms k v) as [r o] eqn:E. injection H as <- <-. specialize (IH _ _ eq_refl x). cbn [children flat_map snd] in *. tm. lia.
Qed.
(** Outcomes: the counts are exact afterwards, or something other than misuse of an object
    has gone wrong. *)
Definition fine {A} (P : A -> Prop) (r : er A) : Prop := match r with EOk a => P a | EUb u => u <> UseAfterFree end.
Lemma fine_bind {A B} (P : A -> Prop) (Q : B -> Prop) r (f : A -> er B) : fine P r -> (forall a, P a -> fine Q (f a)) -> fine Q (ebind r f).
Proof. destruct r as [a|u]; cbn; auto. Qed.
Lemma fine_imp {A} (P Q : A -> Prop) r : fine P r -> (forall a, P a -> Q a) -> fine Q r.
Proof. destruct r as [a|u]; cbn; auto. Qed.
Lemma fine_and {A} (P Q : A -> Prop) r : fine P r -> (forall a, r = EOk a -> Q a) -> fine (fun a => P a /\ Q a) r.
Proof. destruct r as [a|u]; cbn; auto. Qed.
Lemma fine_ok {A} (P : A -> Prop) r : (exists a, r = EOk a /\ P a) -> fine P r.
Proof. intros (a & -> & H). exact H. Qed.

(** Give up what the old cell had and the new one has not. *)
Lemma set_cell' h R R' i o c : exact h R -> nth_error h i = Some (Some o) ->
  (forall x, times x R + times x (children (j_cell o)) = times x R' + times x (children c)) ->
  exact (jset h i (Some {| j_rc := j_rc o; j_cell := c |})) R'.
Proof.
  intros HE Hi HR. eapply exact_set; [exact HE|exact Hi| |].
  - intros x. rewrite (rc_set _ _ _ _ _ Hi). pose proof (refs_set h i _ (Some {| j_rc := j_rc o; j_cell := c |}) x Hi) as HF. cbn [kids j_cell] in HF.
    destruct HE as (H1 & _). specialize (H1 x). specialize (HR x). unfold rc_of in *. destruct (Nat.eqb_spec i x) as [<-|]; cbn [j_rc]; [rewrite Hi in H1; lia|lia].
  - intros o' [= <-]. cbn. destruct HE as (_ & H2). specialize (H2 i). unfold rc_of in H2. rewrite Hi in H2. apply H2. eexists; exact Hi.
Qed.
Lemma jadd_exact h R j k v : exact h (opt_list v ++ R) -> (forall i, j = Some i -> In i R) -> fine (fun h' => exact h' R) (jadd h j k v).
Proof.
  intros HE Hj. destruct j as [i|]; cbn [jadd]; [|discriminate].
  destruct (held_alive h _ i HE) as (o & Hg & Hn & _); [right; apply in_or_app; right; auto|]. rewrite Hg. cbn [ebind].
  destruct (j_cell o) as [|ms|] eqn:Ec; [discriminate| |discriminate]. destruct (set_member ms k v) as [ms' old] eqn:Es.
  pose proof (set_member_kids _ _ _ _ _ Es) as HK. apply fine_ok. apply jput_exact.
  eapply set_cell'; [exact HE|exact Hn|]. intros x. specialize (HK x). rewrite Ec. tm. destruct old as [[y|]|]; cbn [opt_list] in *; tm; lia.
Qed.
Lemma jadd_new_exact h R j k v : exact h (opt_list v ++ R) -> (forall i, j = Some i -> In i R) -> fine (fun h' => exact h' R) (jadd_new h j k v).
Proof.
  intros HE Hj. destruct j as [i|]; cbn [jadd_new]; [|discriminate].
  destruct (held_alive h _ i HE) as (o & Hg & Hn & _); [right; apply in_or_app; right; auto|]. rewrite Hg. cbn [ebind].
  destruct (j_cell o) as [|ms|] eqn:Ec; [discriminate| |discriminate]. cbn [fine].
  eapply set_cell'; [exact HE|exact Hn|]. intros x. rewrite Ec. cbn [children]. rewrite flat_map_app. cbn [flat_map snd]. rewrite app_nil_r. tm. lia.
Qed.
Lemma jpush_exact h R a v : exact h (opt_list v ++ R) -> In a R -> fine (fun h' => exact h' R) (jpush h a v).
Proof.
  intros HE Ha. unfold jpush. destruct (held_alive h _ a HE) as (o & Hg & Hn & _); [right; apply in_or_app; right; auto|]. rewrite Hg. cbn [ebind].
  destruct (j_cell o) as [|ms|xs] eqn:Ec; [discriminate|discriminate|]. cbn [fine].
  eapply set_cell'; [exact HE|exact Hn|]. intros x. rewrite Ec. cbn [children]. rewrite flat_map_app. cbn [flat_map]. rewrite app_nil_r. tm. lia.
Qed.

(** ** Cells of other objects stay *)
Lemma cell_set h i o c x : nth_error h i = Some (Some o) -> cell_of (jset h i (Some {| j_rc := c; j_cell := j_cell o |})) x = cell_of h x.
Proof. intros H. unfold cell_of. rewrite jset_nth. destruct (Nat.eqb_spec i x) as [<-|]; auto. rewrite H. reflexivity. Qed.
Lemma cell_free h i x c : cell_of (jset h i None) x = Some c -> cell_of h x = Some c.
Proof. unfold cell_of. rewrite jset_nth. destruct (Nat.eqb_spec i x) as [<-|]; auto. destruct (nth_error h i); cbn; discriminate. Qed.
Lemma jputs_cell : forall f h w h' x c, jputs f h w = EOk h' -> cell_of h' x = Some c -> cell_of h x = Some c.
Proof.
  induction f as [|f IH]; intros h [|i w] h' x c H Hx; cbn [jputs] in H; try discriminate; try (injection H as <-; exact Hx).
  destruct (jget h i) as [o|u] eqn:E; cbn [ebind] in H; [|discriminate]. apply jget_ok in E. destruct (Nat.leb (j_rc o) 1).
  - eapply cell_free. eapply IH; eauto.
  - rewrite <- (cell_set h i o (pred (j_rc o)) x E). eapply IH; eauto.
Qed.
Lemma exact_cell h R x : exact h R -> In x R -> exists c, cell_of h x = Some c.
Proof. intros HE Hx. destruct (held_alive h R x HE (or_intror Hx)) as (o & _ & Hn & _). unfold cell_of. rewrite Hn. eauto. Qed.
Lemma jputs_keeps f h w h' R x : jputs f h w = EOk h' -> exact h' R -> In x R -> cell_of h' x = cell_of h x.
Proof. intros H HE Hx. destruct (exact_cell _ _ _ HE Hx) as (c & Hc). rewrite Hc. symmetry. eapply jputs_cell; eauto. Qed.
Lemma jref_cell h x h' y : jref h x = EOk h' -> cell_of h' y = cell_of h y.
Proof.
  destruct x as [i|]; cbn [jref]; [|intros [= <-]; auto]. destruct (jget h i) as [o|u] eqn:E; cbn [ebind]; [|discriminate].
  intros [= <-]. apply cell_set. apply jget_ok. exact E.
Qed.
Lemma jadd_cell h i k v h' R y : jadd h (Some i) k v = EOk h' -> exact h' R -> In y R -> y <> i -> cell_of h' y = cell_of h y.
Proof.
  cbn [jadd]. destruct (jget h i) as [o|u] eqn:E; cbn [ebind]; [|discriminate]. destruct (j_cell o) as [|ms|]; try discriminate.
  destruct (set_member ms k v) as [ms' old]. intros H HE Hy Hne. unfold jput in H. rewrite (jputs_keeps _ _ _ _ _ _ H HE Hy).
  unfold cell_of. rewrite jset_nth. destruct (Nat.eqb_spec i y); [congruence|reflexivity].
Qed.

(** ** Which references an operation adds *)
Lemma jset_len h i s : List.length (jset h i s) = List.length h.
Proof. unfold jset. revert i. induction h as [|a h IH]; intros [|i]; cbn; auto. Qed.
(** [h'] has the objects of [h], maybe more, and of references to those only such as [h] has,
    or to those in [l]. *)
Definition grown (l : list nat) (h h' : jheap) : Prop :=
  List.length h <= List.length h' /\ forall x, x < List.length h -> In x (refs h') -> In x (refs h) \/ In x l.
Lemma grown_refl l h : grown l h h. Proof. split; auto. Qed.
Lemma grown_trans l a b c : grown l a b -> grown l b c -> grown l a c.
Proof. intros (H1 & H2) (H3 & H4). split; [lia|]. intros x Hx Hc. destruct (H4 x) as [Hb|]; auto. lia. Qed.
Lemma grown_then l m a b c : grown l a b -> grown m b c -> (forall x, In x m -> x < List.length a -> In x l \/ In x (refs a)) -> grown l a c.
Proof. intros (H1 & H2) (H3 & H4) HM. split; [lia|]. intros x Hx Hc. destruct (H4 x) as [Hb|Hm]; [lia|auto|auto|]. destruct (HM x Hm Hx); auto. Qed.
Lemma grown_weak l l' h h' : (forall x, In x l -> x < List.length h -> In x l' \/ In x (refs h)) -> grown l h h' -> grown l' h h'.
Proof. intros HI (H1 & H2). split; auto. intros x Hx Hc. destruct (H2 x Hx Hc) as [|Hl]; auto. destruct (HI x Hl Hx); auto. Qed.
Lemma grown_set l h i s0 s : nth_error h i = Some s0 -> (forall x, In x (kids s) -> In x (kids s0) \/ In x l) -> grown l h (jset h i s).
Proof.
  intros Hi HK. split; [rewrite jset_len; lia|]. intros x _ Hx. pose proof (refs_set h i s0 s x Hi) as HR.
  pose proof (refs_set h i s0 None x Hi) as HN. cbn [kids] in HN. rewrite times_nil in HN.
  rewrite !times_in in *. specialize (HK x). rewrite !times_in in HK. lia.
Qed.
Lemma grown_alloc h c i h' : jalloc h c = (i, h') -> grown (children c) h h'.
Proof.
  intros [= <- <-]. split; [rewrite app_length; lia|]. intros x _ Hx. rewrite refs_app in Hx. cbn [refs flat_map j_cell] in Hx. rewrite app_nil_r in Hx.
  apply in_app_or in Hx. exact Hx.
Qed.
Lemma grown_jputs : forall f h w h', jputs f h w = EOk h' -> grown [] h h'.
Proof.
  induction f as [|f IH]; intros h [|i w] h' H; cbn [jputs] in H; try discriminate; try (injection H as <-; apply grown_refl).
  destruct (jget h i) as [o|u] eqn:E; cbn [ebind] in H; [|discriminate]. apply jget_ok in E.
  destruct (Nat.leb (j_rc o) 1); apply IH in H; (eapply grown_trans; [|exact H]); (eapply grown_set; [exact E|]); cbn [kids j_cell]; auto; intros x [].
Qed.
Lemma grown_jput h x h' : jput h x = EOk h' -> grown [] h h'. Proof. apply grown_jputs. Qed.
Lemma grown_jref h x h' : jref h x = EOk h' -> grown [] h h'.
Proof.
  destruct x as [i|]; cbn [jref]; [|intros [= <-]; apply grown_refl]. destruct (jget h i) as [o|u] eqn:E; cbn [ebind]; [|discriminate].
  intros [= <-]. apply jget_ok in E. eapply grown_set; [exact E|]. cbn [kids j_cell]. auto.
Qed.
Lemma set_member_in k v : forall ms ms' old, set_member ms k v = (ms', old) -> forall x, In x (children (CObj ms')) -> In x (children (CObj ms)) \/ In x (opt_list v).
Proof. intros ms ms' old H x Hx. pose proof (set_member_kids k v ms ms' old H x) as HK. rewrite !times_in in *. destruct old; lia. Qed.
Lemma grown_jadd h j k v h' : jadd h j k v = EOk h' -> grown (opt_list v) h h'.
Proof.
  destruct j as [i|]; cbn [jadd]; [|discriminate]. destruct (jget h i) as [o|u] eqn:E; cbn [ebind]; [|discriminate]. apply jget_ok in E.
  destruct (j_cell o) as [|ms|] eqn:Ec; try discriminate. destruct (set_member ms k v) as [ms' old] eqn:Es. intros H. apply grown_jput in H.
  eapply grown_trans; [|eapply grown_weak; [|exact H]; intros x []]. eapply grown_set; [exact E|]. cbn [kids j_cell]. rewrite Ec. eapply set_member_in; eauto.
Qed.
Lemma grown_jadd_new h j k v h' : jadd_new h j k v = EOk h' -> grown (opt_list v) h h'.
Proof.
  destruct j as [i|]; cbn [jadd_new]; [|discriminate]. destruct (jget h i) as [o|u] eqn:E; cbn [ebind]; [|discriminate]. apply jget_ok in E.
  destruct (j_cell o) as [|ms|] eqn:Ec; try discriminate. intros [= <-]. eapply grown_set; [exact E|]. cbn [kids j_cell]. rewrite Ec. cbn [children].
  intros x Hx. rewrite flat_map_app in Hx. cbn [flat_map snd] in Hx. rewrite app_nil_r in Hx. apply in_app_or in Hx. exact Hx.
Qed.
Lemma grown_jpush h a v h' : jpush h a v = EOk h' -> grown (opt_list v) h h'.
Proof.
  unfold jpush. destruct (jget h a) as [o|u] eqn:E; cbn [ebind]; [|discriminate]. apply jget_ok in E.
  destruct (j_cell o) as [| |xs] eqn:Ec; try discriminate. intros [= <-]. eapply grown_set; [exact E|]. cbn [kids j_cell]. rewrite Ec. cbn [children].
  intros x Hx. rewrite flat_map_app in Hx. cbn [flat_map] in Hx. rewrite app_nil_r in Hx. apply in_app_or in Hx. exact Hx.
Qed.
Lemma exact_lt h R x : exact h R -> In x (refs h) \/ In x R -> x < List.length h.
Proof. intros HE H. destruct (held_alive h R x HE H) as (o & _ & Hn & _). apply nth_error_Some. congruence. Qed.

(** ** No cycles; what survives is unchanged *)
Definition unref (j : option nat) (h : jheap) : Prop := forall i, j = Some i -> ~ In i (refs h).
Definition surv (b : nat) (j : option nat) (h h' : jheap) : Prop :=
  forall y c, y < b -> j <> Some y -> cell_of h' y = Some c -> cell_of h y = Some c.
Lemma kid_refs h v c y : cell_of h v = Some c -> In y (children c) -> In y (refs h).
Proof. unfold cell_of. destruct (nth_error h v) as [[o|]|] eqn:E; try discriminate. intros [= <-]. eapply refs_in; eauto. Qed.
Lemma acyc_set j h h' : (forall x c, x <> j -> cell_of h' x = Some c -> cell_of h x = Some c) -> ~ In j (refs h') -> acyclic h -> acyclic h'.
Proof.
  intros HS HU (rk & HK). exists (fun x => if Nat.eqb x j then S (match cell_of h' j with Some c => list_max (map rk (children c)) | None => 0 end) else rk x).
  intros x c y Hx Hy. assert (Hyj : y <> j) by (intros ->; apply HU; eapply kid_refs; eauto).
  rewrite (proj2 (Nat.eqb_neq y j) Hyj). destruct (Nat.eqb_spec x j) as [->|Hxj]; [|eapply HK; eauto].
  rewrite Hx. apply Nat.lt_succ_r. assert (HM : Forall (fun k => k <= list_max (map rk (children c))) (map rk (children c))) by (apply list_max_le; lia).
  rewrite Forall_forall in HM. apply HM. apply in_map. exact Hy.
Qed.
Lemma acyc_sub h h' : (forall x c, cell_of h' x = Some c -> cell_of h x = Some c) -> acyclic h -> acyclic h'.
Proof. intros HS (rk & HK). exists rk. intros x c y Hx Hy. eapply HK; eauto. Qed.
Lemma unref_grown l j h h' : grown l h h' -> (forall i, j = Some i -> i < List.length h /\ ~ In i l) -> unref j h -> unref j h'.
Proof. intros (_ & HG) HL HU i Hi Hin. destruct (HL i Hi) as (H1 & H2). destruct (HG i H1 Hin) as [H3|H3]; [exact (HU i Hi H3)|auto]. Qed.
Definition calm (b : nat) (j : option nat) (h h' : jheap) : Prop := surv b j h h' /\ (acyclic h -> unref j h -> acyclic h').
Lemma calm_refl b j h : calm b j h h.
Proof. split; [intros y c; auto|auto]. Qed.
Lemma calm_trans b b' j h1 h2 h3 : calm b j h1 h2 -> calm b' j h2 h3 -> b <= b' -> (unref j h1 -> unref j h2) -> calm b j h1 h3.
Proof. intros (S1 & A1) (S2 & A2) Hb HU. split; [intros y c Hy Hj Hc; apply S1; auto; apply S2; auto; lia|auto]. Qed.
Lemma calm_le b b' j h h' : calm b' j h h' -> b <= b' -> calm b j h h'.
Proof. intros (S1 & A1) Hb. split; [intros y c Hy; apply S1; lia|auto]. Qed.
Lemma calm_other b j j' h h' : calm b j' h h' -> (forall i, j' = Some i -> b <= i) -> unref j' h -> calm b j h h'.
Proof. intros (S1 & A1) Hb HU. split; [|auto]. intros y c Hy _. apply S1; auto. intros Hq. specialize (Hb y Hq). lia. Qed.
Lemma calm_same b j h h' : (forall y c, cell_of h' y = Some c -> cell_of h y = Some c) -> calm b j h h'.
Proof. intros HS. split; [intros y c _ _; apply HS|intros HA _; eapply acyc_sub; eauto]. Qed.
Lemma calm_jput b j h v h' : jput h v = EOk h' -> calm b j h h'.
Proof. intros H. apply calm_same. intros y c. eapply jputs_cell; exact H. Qed.
Lemma calm_jref b j h v h' : jref h v = EOk h' -> calm b j h h'.
Proof. intros H. apply calm_same. intros y c. rewrite (jref_cell _ _ _ _ H). auto. Qed.
Lemma calm_one b i h h' l : (forall x c, x <> i -> cell_of h' x = Some c -> cell_of h x = Some c) -> grown l h h' -> i < List.length h -> (unref (Some i) h -> ~ In i l) -> calm b (Some i) h h'.
Proof.
  intros HS HG Hi Hl. split; [intros y c _ Hn; apply HS; congruence|]. intros HA HU. apply (acyc_set i h h'); auto.
  apply (unref_grown l (Some i) h h' HG); auto. intros k [= <-]. split; auto.
Qed.
Lemma jget_lt h i o : jget h i = EOk o -> i < List.length h.
Proof. intros H. apply jget_ok in H. apply nth_error_Some. congruence. Qed.
Lemma calm_jadd0 b h i k v h' : jadd h (Some i) k v = EOk h' -> surv b (Some i) h h' /\ True.
Proof.
  intros H. cbn [jadd] in H. destruct (jget h i) as [o|u] eqn:E; cbn [ebind] in H; [|discriminate].
  destruct (j_cell o) as [|ms|] eqn:Ec; try discriminate. destruct (set_member ms k v) as [ms' old]. split; auto.
  intros x c _ Hx Hc. apply (jputs_cell _ _ _ _ _ _ H) in Hc. unfold cell_of in *. rewrite jset_nth in Hc. destruct (Nat.eqb_spec i x); [congruence|exact Hc].
Qed.
Lemma calm_jadd b h i k v h' : jadd h (Some i) k v = EOk h' -> (unref (Some i) h -> v <> Some i) -> calm b (Some i) h h'.
Proof.
  intros H Hv. pose proof (grown_jadd _ _ _ _ _ H) as HG. cbn [jadd] in H. destruct (jget h i) as [o|u] eqn:E; cbn [ebind] in H; [|discriminate].
  destruct (j_cell o) as [|ms|] eqn:Ec; try discriminate. destruct (set_member ms k v) as [ms' old]. apply (calm_one b i h h' (opt_list v)); auto.
  - intros x c Hx Hc. apply (jputs_cell _ _ _ _ _ _ H) in Hc. unfold cell_of in *. rewrite jset_nth in Hc. destruct (Nat.eqb_spec i x); [congruence|exact Hc].
  - eapply jget_lt; exact E.
  - intros HU. specialize (Hv HU). destruct v as [y|]; cbn; [intros [<-|[]]; congruence|tauto].
Qed.
Lemma calm_jadd_new b h i k v h' : jadd_new h (Some i) k v = EOk h' -> (unref (Some i) h -> v <> Some i) -> calm b (Some i) h h'.
Proof.
  intros H Hv. pose proof (grown_jadd_new _ _ _ _ _ H) as HG. cbn [jadd_new] in H. destruct (jget h i) as [o|u] eqn:E; cbn [ebind] in H; [|discriminate].
  destruct (j_cell o) as [|ms|] eqn:Ec; try discriminate. apply (calm_one b i h h' (opt_list v)); auto.
  - injection H as <-. intros x c Hx Hc. unfold cell_of in *. rewrite jset_nth in Hc. destruct (Nat.eqb_spec i x); [congruence|exact Hc].
  - eapply jget_lt; exact E.
  - intros HU. specialize (Hv HU). destruct v as [y|]; cbn; [intros [<-|[]]; congruence|tauto].
Qed.
Lemma calm_jpush b h i v h' : jpush h i v = EOk h' -> (unref (Some i) h -> v <> Some i) -> calm b (Some i) h h'.
Proof.
  intros H Hv. pose proof (grown_jpush _ _ _ _ H) as HG. unfold jpush in H. destruct (jget h i) as [o|u] eqn:E; cbn [ebind] in H; [|discriminate].
  destruct (j_cell o) as [| |xs] eqn:Ec; try discriminate. apply (calm_one b i h h' (opt_list v)); auto.
  - injection H as <-. intros x c Hx Hc. unfold cell_of in *. rewrite jset_nth in Hc. destruct (Nat.eqb_spec i x); [congruence|exact Hc].
  - eapply jget_lt; exact E.
  - intros HU. specialize (Hv HU). destruct v as [y|]; cbn; [intros [<-|[]]; congruence|tauto].
Qed.
(** A new object. *)
Lemma calm_jalloc h R c i h' j : exact h R -> (forall y, In y (children c) -> y < List.length h) -> jalloc h c = (i, h') -> calm (List.length h) j h h'.
Proof.
  intros HE HC [= <- <-]. assert (HA : forall x, x < List.length h -> cell_of (h ++ [Some {| j_rc := 1; j_cell := c |}]) x = cell_of h x).
  { intros x Hx. unfold cell_of. rewrite nth_error_app1 by exact Hx. reflexivity. }
  split; [intros y d Hy _; rewrite HA by exact Hy; auto|]. intros HK _. apply (acyc_set (List.length h) h); auto.
  - intros x d Hx Hc. destruct (Nat.lt_trichotomy x (List.length h)) as [Hl|[Hl|Hl]]; [rewrite HA in Hc by exact Hl; exact Hc|congruence|].
    unfold cell_of in Hc. rewrite nth_error_app2 in Hc by lia. destruct (x - List.length h) as [|[|k]] eqn:Ek; cbn in Hc; try discriminate. lia.
  - rewrite refs_app. cbn [refs flat_map j_cell]. rewrite app_nil_r. intros Hi. apply in_app_or in Hi as [Hi|Hi].
    + pose proof (exact_lt h R _ HE (or_introl Hi)). lia.
    + specialize (HC _ Hi). lia.
Qed.

(** ** Values of field parsers *)
Lemma jnew_exact : forall v h R x h', exact h R -> jnew v h = (x, h') ->
  exact h' (opt_list x ++ R) /\ grown [] h h' /\ forall i, x = Some i -> List.length h <= i.
Proof.
  fix IH 1. intros v h R x h' HE H. destruct v as [|b|z|rp|s|l|l].
  - cbn in H. injection H as <- <-. split; [exact HE|]. split; [apply grown_refl|discriminate].
  - cbn in H. injection H as <- <-. split; [apply (jalloc_exact h R (CLeaf (JBool b)) _ _ HE eq_refl)|]. split; [apply (grown_alloc h (CLeaf (JBool b)) _ _ eq_refl)|]. intros i [= <-]. lia.
  - cbn in H. injection H as <- <-. split; [apply (jalloc_exact h R (CLeaf (JInt z)) _ _ HE eq_refl)|]. split; [apply (grown_alloc h (CLeaf (JInt z)) _ _ eq_refl)|]. intros i [= <-]. lia.
  - cbn in H. injection H as <- <-. split; [apply (jalloc_exact h R (CLeaf (JDouble rp)) _ _ HE eq_refl)|]. split; [apply (grown_alloc h (CLeaf (JDouble rp)) _ _ eq_refl)|]. intros i [= <-]. lia.
  - cbn in H. injection H as <- <-. split; [apply (jalloc_exact h R (CLeaf (JStr s)) _ _ HE eq_refl)|]. split; [apply (grown_alloc h (CLeaf (JStr s)) _ _ eq_refl)|]. intros i [= <-]. lia.
  - cbn [jnew] in H. set (go := (fix go (l : list json) (h : jheap) {struct l} := match l with
                       | [] => ([], h)
                       | a :: l' => let (x, h1) := jnew a h in let (xs, h2) := go l' h1 in (x :: xs, h2)
                       end)) in H.
    assert (HG : forall l h R xs h', exact h R -> go l h = (xs, h') -> exact h' (flat_map opt_list xs ++ R) /\ grown [] h h' /\ forall i, In i (flat_map opt_list xs) -> List.length h <= i).
    { clear - IH. induction l as [|a l IHl]; intros h R xs h' HE H; cbn in H.
      - injection H as <- <-. split; [exact HE|]. split; [apply grown_refl|intros i []].
      - destruct (jnew a h) as [x h1] eqn:E1. destruct (IH a h R x h1 HE E1) as (HE1 & HL1 & HF1).
        destruct (go l h1) as [xs1 h2] eqn:E2. injection H as <- <-. destruct (IHl _ _ _ _ HE1 E2) as (HE2 & HL2 & HF2).
        split; [|split; [eapply grown_trans; eauto|intros i Hi; cbn [flat_map snd] in Hi; apply in_app_or in Hi as [Hi|Hi]; [destruct x; cbn in Hi; [destruct Hi as [<-|[]]; auto|tauto]|specialize (HF2 i Hi); destruct HL1; lia]]].
        cbn [flat_map]. eapply exact_ext; [exact HE2|]. intros y. tm. lia. }
    destruct (go l h) as [xs h1] eqn:E. destruct (HG _ _ _ _ _ HE E) as (HE1 & HL & HF). cbn in H. injection H as <- <-.
    split; [apply (jalloc_exact h1 R (CArr xs) _ _ HE1 eq_refl)|]. split; [|intros i [= <-]; apply (proj1 HL)]. eapply grown_then; [exact HL|apply (grown_alloc h1 (CArr xs) _ _ eq_refl)|]. intros y Hy Hy2. specialize (HF y Hy). lia.
  - cbn [jnew] in H. set (go := (fix go (l : list (text * json)) (h : jheap) {struct l} := match l with
                       | [] => ([], h)
                       | (k, a) :: l' => let (x, h1) := jnew a h in let (ms, h2) := go l' h1 in ((k, x) :: ms, h2)
                       end)) in H.
    assert (HG : forall l h R xs h', exact h R -> go l h = (xs, h') -> exact h' (flat_map (fun kv => opt_list (snd kv)) xs ++ R) /\ grown [] h h' /\ forall i, In i (flat_map (fun kv => opt_list (snd kv)) xs) -> List.length h <= i).
    { clear - IH. induction l as [|[k a] l IHl]; intros h R xs h' HE H; cbn in H.
      - injection H as <- <-. split; [exact HE|]. split; [apply grown_refl|intros i []].
      - destruct (jnew a h) as [x h1] eqn:E1. destruct (IH a h R x h1 HE E1) as (HE1 & HL1 & HF1).
        destruct (go l h1) as [xs1 h2] eqn:E2. injection H as <- <-. destruct (IHl _ _ _ _ HE1 E2) as (HE2 & HL2 & HF2).
        split; [|split; [eapply grown_trans; eauto|intros i Hi; cbn [flat_map snd] in Hi; apply in_app_or in Hi as [Hi|Hi]; [destruct x; cbn in Hi; [destruct Hi as [<-|[]]; auto|tauto]|specialize (HF2 i Hi); destruct HL1; lia]]].
        cbn [flat_map snd]. eapply exact_ext; [exact HE2|]. intros y. tm. lia. }
    destruct (go l h) as [xs h1] eqn:E. destruct (HG _ _ _ _ _ HE E) as (HE1 & HL & HF). cbn in H. injection H as <- <-.
    split; [apply (jalloc_exact h1 R (CObj xs) _ _ HE1 eq_refl)|]. split; [|intros i [= <-]; apply (proj1 HL)]. eapply grown_then; [exact HL|apply (grown_alloc h1 (CObj xs) _ _ eq_refl)|]. intros y Hy Hy2. specialize (HF y Hy). lia.
Qed.


(** ** Which objects change, and how many members "." they have *)
Definition is_dot (kv : text * option nat) : bool := text_eqb (fst kv) (L ".").
Definition ndots (ms : list (text * option nat)) : nat := List.length (filter is_dot ms).
Definition dots (h : jheap) (i : nat) : nat := match cell_of h i with Some (CObj ms) => ndots ms | _ => 0 end.
Lemma dots_cell h h' i : cell_of h' i = cell_of h i -> dots h' i = dots h i.
Proof. unfold dots. intros ->. reflexivity. Qed.
Definition b2n (b : bool) : nat := if b then 1 else 0.
Lemma ndots_cons k v ms : ndots ((k, v) :: ms) = b2n (text_eqb k (L ".")) + ndots ms.
Proof. unfold ndots, is_dot. cbn [filter fst]. destruct (text_eqb k (L ".")); reflexivity. Qed.
Lemma ndots_nil : ndots [] = 0. Proof. reflexivity. Qed.
Lemma b2n_le b : b2n b <= 1. Proof. destruct b; cbn; lia. Qed.
Lemma set_member_same k v : text_eqb k (L ".") = false -> forall ms ms' old, set_member ms k v = (ms', old) -> ndots ms' = ndots ms.
Proof.
  intros Hk. induction ms as [|[k' v'] ms IH]; intros ms' old H; cbn [set_member] in H.
  - injection H as <- <-. rewrite ndots_cons, Hk. reflexivity.
  - destruct (text_eqb k' k); [injection H as <- <-; rewrite !ndots_cons; reflexivity|].
    destruct (set_member ms k v) as [r o]. injection H as <- <-. rewrite !ndots_cons. rewrite (IH _ _ eq_refl). reflexivity.
Qed.
Lemma set_member_dots k v : forall ms ms' old, set_member ms k v = (ms', old) -> ndots ms' <= Nat.max 1 (ndots ms).
Proof.
  induction ms as [|[k' v'] ms IH]; intros ms' old H; cbn [set_member] in H.
  - injection H as <- <-. rewrite ndots_cons, ndots_nil. pose proof (b2n_le (text_eqb k (L "."))). lia.
  - destruct (text_eqb k' k) eqn:E; [injection H as <- <-; rewrite !ndots_cons; lia|].
    destruct (set_member ms k v) as [r o] eqn:Er. injection H as <- <-. specialize (IH _ _ eq_refl). rewrite !ndots_cons.
    destruct (text_eqb k' (L ".")) eqn:Ed; cbn [b2n]; [|lia].
    rewrite (set_member_same k v) with (ms := ms) (old := o); [lia| |exact Er].
    destruct (text_eqb k (L ".")) eqn:Ek; auto. apply text_eqb_true in Ek, Ed. subst. rewrite text_eqb_refl in E. discriminate.
Qed.
Lemma jadd_dots h i k v h' R : jadd h (Some i) k v = EOk h' -> exact h' R -> In i R -> dots h' i <= Nat.max 1 (dots h i).
Proof.
  cbn [jadd]. destruct (jget h i) as [o|u] eqn:E; cbn [ebind]; [|discriminate]. destruct (j_cell o) as [|ms|] eqn:Ec; try discriminate.
  destruct (set_member ms k v) as [ms' old] eqn:Es. intros H HE Hi. unfold jput in H. unfold dots. rewrite (jputs_keeps _ _ _ _ _ _ H HE Hi).
  apply jget_ok in E. unfold cell_of. rewrite jset_nth, Nat.eqb_refl, E. cbn [option_map j_cell]. rewrite Ec. eapply set_member_dots; exact Es.
Qed.
Lemma jput_keeps h v h' R x : jput h v = EOk h' -> exact h' R -> In x R -> cell_of h' x = cell_of h x.
Proof. unfold jput. apply jputs_keeps. Qed.
Lemma jadd_new_cell h i k v h' y : jadd_new h (Some i) k v = EOk h' -> y <> i -> cell_of h' y = cell_of h y.
Proof.
  cbn [jadd_new]. destruct (jget h i) as [o|u] eqn:E; cbn [ebind]; [|discriminate]. destruct (j_cell o) as [|ms|]; try discriminate.
  intros [= <-] Hne. unfold cell_of. rewrite jset_nth. destruct (Nat.eqb_spec i y); [congruence|reflexivity].
Qed.
Lemma jadd_new_dots h i k v h' : jadd_new h (Some i) k v = EOk h' -> dots h' i = dots h i + if text_eqb k (L ".") then 1 else 0.
Proof.
  cbn [jadd_new]. destruct (jget h i) as [o|u] eqn:E; cbn [ebind]; [|discriminate]. destruct (j_cell o) as [|ms|] eqn:Ec; try discriminate.
  intros [= <-]. apply jget_ok in E. unfold dots, cell_of. rewrite jset_nth, Nat.eqb_refl, E. cbn [option_map j_cell]. rewrite Ec.
  assert (HA : ndots (ms ++ [(k, v)]) = ndots ms + ndots [(k, v)]) by (unfold ndots; rewrite filter_app, app_length; reflexivity).
  rewrite HA, ndots_cons, ndots_nil. destruct (text_eqb k (L ".")); reflexivity.
Qed.
Lemma jpush_cell h a v h' y : jpush h a v = EOk h' -> y <> a -> cell_of h' y = cell_of h y.
Proof.
  unfold jpush. destruct (jget h a) as [o|u] eqn:E; cbn [ebind]; [|discriminate]. destruct (j_cell o) as [|ms|xs]; try discriminate.
  intros [= <-] Hne. unfold cell_of. rewrite jset_nth. destruct (Nat.eqb_spec a y); [congruence|reflexivity].
Qed.
Lemma app_cell h t y : y < List.length h -> cell_of (h ++ t) y = cell_of h y.
Proof. intros H. unfold cell_of. rewrite nth_error_app1 by exact H. reflexivity. Qed.
Lemma jalloc_cell h c i h' y : jalloc h c = (i, h') -> y < List.length h -> cell_of h' y = cell_of h y.
Proof. intros [= <- <-]. apply app_cell. Qed.
Lemma jalloc_new h c i h' : jalloc h c = (i, h') -> cell_of h' i = Some c.
Proof. intros [= <- <-]. unfold cell_of. rewrite nth_error_app2, Nat.sub_diag by lia. reflexivity. Qed.
Lemma jnew_prefix : forall v h x h', jnew v h = (x, h') -> exists t, h' = h ++ t.
Proof.
  fix IH 1. intros v h x h' H. destruct v as [|b|z|rp|s|l|l]; try (cbn in H; injection H as <- <-; eexists; reflexivity).
  - cbn in H. injection H as <- <-. exists []. rewrite app_nil_r. reflexivity.
  - cbn [jnew] in H. set (go := (fix go (l : list json) (h : jheap) {struct l} := match l with
                       | [] => ([], h)
                       | a :: l' => let (x, h1) := jnew a h in let (xs, h2) := go l' h1 in (x :: xs, h2)
                       end)) in H.
    assert (HG : forall l h xs h', go l h = (xs, h') -> exists t, h' = h ++ t).
    { clear - IH. induction l as [|a l IHl]; intros h xs h' H; cbn in H.
      - injection H as <- <-. exists []. rewrite app_nil_r. reflexivity.
      - destruct (jnew a h) as [x h1] eqn:E1. destruct (IH _ _ _ _ E1) as (t1 & ->).
        destruct (go l (h ++ t1)) as [xs1 h2] eqn:E2. injection H as <- <-. destruct (IHl _ _ _ E2) as (t2 & ->). exists (t1 ++ t2). symmetry; apply app_assoc. }
    destruct (go l h) as [xs h1] eqn:E. destruct (HG _ _ _ _ E) as (t1 & ->). cbn in H. injection H as <- <-. eexists. symmetry; apply app_assoc.
  - cbn [jnew] in H. set (go := (fix go (l : list (text * json)) (h : jheap) {struct l} := match l with
                       | [] => ([], h)
                       | (k, a) :: l' => let (x, h1) := jnew a h in let (ms, h2) := go l' h1 in ((k, x) :: ms, h2)
                       end)) in H.
    assert (HG : forall l h xs h', go l h = (xs, h') -> exists t, h' = h ++ t).
    { clear - IH. induction l as [|[k a] l IHl]; intros h xs h' H; cbn in H.
      - injection H as <- <-. exists []. rewrite app_nil_r. reflexivity.
      - destruct (jnew a h) as [x h1] eqn:E1. destruct (IH _ _ _ _ E1) as (t1 & ->).
        destruct (go l (h ++ t1)) as [xs1 h2] eqn:E2. injection H as <- <-. destruct (IHl _ _ _ E2) as (t2 & ->). exists (t1 ++ t2). symmetry; apply app_assoc. }
    destruct (go l h) as [xs h1] eqn:E. destruct (HG _ _ _ _ E) as (t1 & ->). cbn in H. injection H as <- <-. eexists. symmetry; apply app_assoc.
Qed.
Lemma acyc_alloc h R c : exact h R -> (forall y, In y (children c) -> y < List.length h) -> acyclic h -> acyclic (h ++ [Some {| j_rc := 1; j_cell := c |}]).
Proof. intros HE HC HA. apply (calm_jalloc h R c _ _ None HE HC eq_refl); [exact HA|]. intros i Hi. discriminate. Qed.
Lemma jnew_acyc : forall v h R x h', exact h R -> jnew v h = (x, h') -> acyclic h -> acyclic h'.
Proof.
  fix IH 1. intros v h R x h' HE H HA. destruct v as [|b|z|rp|s|l|l].
  - cbn in H. injection H as <- <-. exact HA.
  - cbn in H. injection H as <- <-. apply (acyc_alloc h R (CLeaf (JBool b))); [exact HE|intros y []|exact HA].
  - cbn in H. injection H as <- <-. apply (acyc_alloc h R (CLeaf (JInt z))); [exact HE|intros y []|exact HA].
  - cbn in H. injection H as <- <-. apply (acyc_alloc h R (CLeaf (JDouble rp))); [exact HE|intros y []|exact HA].
  - cbn in H. injection H as <- <-. apply (acyc_alloc h R (CLeaf (JStr s))); [exact HE|intros y []|exact HA].
  - cbn [jnew] in H. set (go := (fix go (l : list json) (h : jheap) {struct l} := match l with
                       | [] => ([], h)
                       | a :: l' => let (x, h1) := jnew a h in let (xs, h2) := go l' h1 in (x :: xs, h2)
                       end)) in H.
    assert (HG : forall l h R xs h', exact h R -> go l h = (xs, h') -> acyclic h -> acyclic h' /\ exact h' (flat_map opt_list xs ++ R)).
    { clear - IH. induction l as [|a l IHl]; intros h R xs h' HE H HA; cbn in H.
      - injection H as <- <-. auto.
      - destruct (jnew a h) as [x h1] eqn:E1. destruct (jnew_exact a h R x h1 HE E1) as (HE1 & _). pose proof (IH a h R x h1 HE E1 HA) as HA1.
        destruct (go l h1) as [xs1 h2] eqn:E2. injection H as <- <-. destruct (IHl _ _ _ _ HE1 E2 HA1) as (HA2 & HE2). split; auto.
        cbn [flat_map]. eapply exact_ext; [exact HE2|]. intros y. tm. lia. }
    destruct (go l h) as [xs h1] eqn:E. destruct (HG _ _ _ _ _ HE E HA) as (HA1 & HE1). cbn in H. injection H as <- <-.
    apply (acyc_alloc h1 _ (CArr xs) HE1); [|exact HA1].
    intros y Hy. eapply exact_lt; [exact HE1|]. right. apply in_or_app; left; exact Hy.
  - cbn [jnew] in H. set (go := (fix go (l : list (text * json)) (h : jheap) {struct l} := match l with
                       | [] => ([], h)
                       | (k, a) :: l' => let (x, h1) := jnew a h in let (ms, h2) := go l' h1 in ((k, x) :: ms, h2)
                       end)) in H.
    assert (HG : forall l h R xs h', exact h R -> go l h = (xs, h') -> acyclic h -> acyclic h' /\ exact h' (flat_map (fun kv => opt_list (snd kv)) xs ++ R)).
    { clear - IH. induction l as [|[k a] l IHl]; intros h R xs h' HE H HA; cbn in H.
      - injection H as <- <-. auto.
      - destruct (jnew a h) as [x h1] eqn:E1. destruct (jnew_exact a h R x h1 HE E1) as (HE1 & _). pose proof (IH a h R x h1 HE E1 HA) as HA1.
        destruct (go l h1) as [xs1 h2] eqn:E2. injection H as <- <-. destruct (IHl _ _ _ _ HE1 E2 HA1) as (HA2 & HE2). split; auto.
        cbn [flat_map snd]. eapply exact_ext; [exact HE2|]. intros y. tm. lia. }
    destruct (go l h) as [xs h1] eqn:E. destruct (HG _ _ _ _ _ HE E HA) as (HA1 & HE1). cbn in H. injection H as <- <-.
    apply (acyc_alloc h1 _ (CObj xs) HE1); [|exact HA1].
    intros y Hy. eapply exact_lt; [exact HE1|]. right. apply in_or_app; left; exact Hy.
Qed.
Lemma pick_cells pv : forall ms h toAdd lost r, pick_dot h pv ms toAdd lost = EOk r ->
  (forall y, cell_of (snd (fst r)) y = cell_of h y) /\ (ndots ms = 0 \/ (toAdd = Some pv /\ ndots ms <= 1) -> snd r = lost).
Proof.
  induction ms as [|[k x] ms IH]; intros h toAdd lost r H; cbn [pick_dot] in *.
  { injection H as <-. auto. }
  rewrite ndots_cons. destruct (text_eqb k (L ".")).
  - destruct (jref h x) as [h1|u] eqn:E1; cbn [ebind] in H; [|discriminate]. cbv zeta in H. destruct (IH _ _ _ _ H) as (H1 & H2). split.
    + intros y. rewrite H1. eapply jref_cell; exact E1.
    + cbn [b2n]. intros [Hd|(-> & Hd)]; [lia|]. rewrite Nat.eqb_refl in H2. apply H2. left. lia.
  - destruct (IH _ _ _ _ H) as (H1 & H2). split; auto.
Qed.

(** ** fixJSON *)
Lemma kid_in ms k i : In (k, Some i) ms -> In i (children (CObj ms)).
Proof. intros H. cbn. apply in_flat_map. exists (k, Some i). split; auto. left; auto. Qed.
Lemma share_exact j v all R : j <> Some v -> In v R -> (forall i, j = Some i -> In i R) -> forall ms h, exact h R -> cell_of h v = Some (CObj all) -> incl ms all ->
  fine (fun h' => (exact h' R /\ grown [] h h') /\ (forall y, In y R -> j <> Some y -> cell_of h' y = cell_of h y) /\ (forall i, j = Some i -> dots h' i <= Nat.max 1 (dots h i)) /\ forall b, calm b j h h') (share_members h j ms).
Proof.
  intros Hne Hv Hj. induction ms as [|[k x] ms IH]; intros h HE Hc Hin; cbn [share_members]; [split; [split; [exact HE|apply grown_refl]|split; auto; split; [intros; lia|intros; apply calm_refl]]|].
  assert (Hx : forall i, In i (opt_list x) -> In i (refs h)).
  { intros i Hi. destruct x as [y|]; cbn in Hi; [destruct Hi as [<-|[]]|tauto]. eapply kid_refs; [exact Hc|]. apply (kid_in all k). apply Hin. left; auto. }
  destruct (jref_exact h R x HE) as (h1 & E1 & HE1).
  { intros i ->. left. apply Hx. left; auto. }
  rewrite E1. cbn [ebind]. pose proof (jadd_exact h1 R j k x HE1 Hj) as HA. destruct (jadd h1 j k x) as [h2|u] eqn:E2; [|exact HA].
  cbn [ebind fine] in HA |- *. eapply fine_imp; [apply IH; auto|].
  - destruct j as [i|]; [|discriminate]. rewrite (jadd_cell _ _ _ _ _ R v E2 HA Hv) by congruence. rewrite (jref_cell _ _ _ _ E1). exact Hc.
  - intros y Hy. apply Hin. right; auto.
  - intros h3 ((HE3 & HG3) & HF3 & HD3 & HC3). destruct j as [i|]; [|discriminate]. split; [split; auto|split; [|split]].
    + eapply grown_trans; [|exact HG3]. eapply grown_then; [eapply grown_jref; exact E1|eapply grown_jadd; exact E2|]. auto.
    + intros y Hy Hney. rewrite HF3 by auto. rewrite (jadd_cell _ _ _ _ _ R y E2 HA Hy) by congruence. apply (jref_cell _ _ _ _ E1).
    + intros i' [= <-]. specialize (HD3 i eq_refl). pose proof (jadd_dots _ _ _ _ _ R E2 HA (Hj _ eq_refl)) as HD2.
      rewrite (dots_cell _ _ i (jref_cell _ _ _ _ E1)) in HD2. lia.
    + intros b. assert (Hi : i < List.length h) by (eapply exact_lt; [exact HE|right; apply (Hj _ eq_refl)]).
      assert (HU1 : unref (Some i) h -> unref (Some i) h1).
      { apply (unref_grown [] _ h h1 (grown_jref _ _ _ E1)). intros k0 [= <-]. split; auto. }
      assert (HX : unref (Some i) h -> x <> Some i) by (intros HU ->; apply (HU i eq_refl), Hx; left; auto).
      assert (Hi1 : i < List.length h1) by (destruct (grown_jref _ _ _ E1); lia).
      apply (calm_trans b b (Some i) h h2); [|apply HC3|auto|].
      * split.
        -- intros y c Hy Hn Hc2. rewrite <- (jref_cell _ _ _ y E1). apply (proj1 (calm_jadd0 _ _ _ _ _ _ E2) y c Hy Hn Hc2).
        -- intros HA0 HU. apply (proj2 (calm_jadd b _ _ _ _ _ E2 (fun _ => HX HU))); auto. apply (proj2 (calm_jref b (Some i) _ _ _ E1)); auto.
      * intros HU. apply (unref_grown (opt_list x) _ h1 h2 (grown_jadd _ _ _ _ _ E2)); auto. intros k0 [= <-]. split; auto.
        specialize (HX HU). destruct x; cbn; [intros [<-|[]]; congruence|tauto].
Qed.
Lemma members_ok h v R : exact h R -> (forall i, v = Some i -> In i R) -> exists m, members h v = EOk m /\
  forall ms, m = Some ms -> exists i, v = Some i /\ cell_of h i = Some (CObj ms).
Proof.
  intros HE Hv. destruct v as [i|]; cbn [members]; [|exists None; split; auto; discriminate].
  destruct (held_alive h R i HE (or_intror (Hv _ eq_refl))) as (o & Hg & Hn & _). rewrite Hg. cbn [ebind]. eexists. split; [reflexivity|].
  intros ms Hms. exists i. split; auto. unfold cell_of. rewrite Hn. destruct (j_cell o); congruence.
Qed.
Lemma fix_exact p v j h R : j = None \/ j <> v -> exact h (opt_list v ++ R) -> (forall i, j = Some i -> In i R) ->
  fine (fun h' => (exact h' R /\ grown (opt_list v) h h') /\ (forall y, In y R -> j <> Some y -> cell_of h' y = cell_of h y) /\
     (forall i, j = Some i -> dots h' i <= S (dots h i) /\ (p_name p <> Some (L ".") -> dots h' i = dots h i)) /\ forall b, calm b j h h') (fixJSONH p v j h).
Proof.
  intros Hne HE Hj. unfold fixJSONH. destruct (p_name p) as [nm|].
  2:{ destruct (jput_exact _ _ _ HE) as (h' & E' & HE'). rewrite E'. split; [split; auto; eapply grown_weak; [|eapply grown_jput; exact E']; intros x []|].
      split; [intros y Hy _; eapply jput_keeps; eauto|]. split; [|intros b; eapply calm_jput; exact E']. intros i Hi. rewrite (dots_cell h h' i); [auto|]. eapply jput_keeps; eauto. }
  destruct (members_ok h v _ HE) as (m & Em & Hm); [intros i ->; left; auto|]. rewrite Em. cbn [ebind].
  assert (HN : Some nm <> Some (L ".") -> text_eqb nm (L ".") = false).
  { intros Hn. destruct (text_eqb nm (L ".")) eqn:E; auto. apply text_eqb_true in E. congruence. }
  assert (HD : fine (fun h' => (exact h' R /\ grown (opt_list v) h h') /\ (forall y, In y R -> j <> Some y -> cell_of h' y = cell_of h y) /\
     (forall i, j = Some i -> dots h' i <= S (dots h i) /\ (Some nm <> Some (L ".") -> dots h' i = dots h i)) /\ forall b, calm b j h h') (jadd_new h j nm v)).
  { apply fine_and; [apply fine_and; [apply jadd_new_exact; auto|]; intros a Ea; eapply grown_jadd_new; exact Ea|]. intros a Ea.
    destruct j as [i|]; [|discriminate]. split; [intros y Hy Hn; eapply jadd_new_cell; [exact Ea|congruence]|].
    split; [|intros b; apply (calm_jadd_new b _ _ _ _ _ Ea); intros _ ->; destruct Hne; congruence].
    intros i' [= <-]. pose proof (jadd_new_dots _ _ _ _ _ Ea) as Hd. split; [destruct (text_eqb nm (L ".")); lia|]. intros Hn. rewrite (HN Hn) in Hd. lia. }
  destruct (text_eqb nm (L ".")) eqn:Enm.
  - destruct m as [ms|]; [|exact HD]. destruct (Hm ms eq_refl) as (i & -> & Hc).
    assert (Hji : j <> Some i) by (destruct Hne as [->|]; [discriminate|auto]).
    eapply fine_bind; [apply (share_exact j i ms (opt_list (Some i) ++ R) Hji); auto; [left; auto|intros y Hy; right; auto|apply incl_refl]|].
    intros h1 ((HE1 & HG1) & HF1 & HD1 & HC1). destruct (jput_exact _ _ _ HE1) as (h' & E' & HE'). rewrite E'. split; [split; auto|split; [|split]].
    + eapply grown_weak; [|eapply grown_trans; [exact HG1|eapply grown_jput; exact E']]. intros x [].
    + intros y Hy Hny. rewrite (jput_keeps _ _ _ _ _ E' HE' Hy). apply HF1; auto. right; auto.
    + intros i' ->. specialize (HD1 i' eq_refl). rewrite (dots_cell h1 h' i'); [|eapply jput_keeps; eauto]. split; [lia|]. intros Hn. specialize (HN Hn). discriminate.
    + intros b. apply (calm_trans b b j h h1); [apply HC1|eapply calm_jput; exact E'|auto|].
      apply (unref_grown [] j h h1 HG1). intros k0 Hk. split; auto. eapply exact_lt; [exact HE|]. right. right. auto.
  - destruct m as [[|[k x] [|kv ms]]|]; auto. destruct (text_eqb k (L "..")); auto. destruct (Hm _ eq_refl) as (i & -> & Hc).
    assert (Hx : forall y, In y (opt_list x) -> In y (refs h)).
    { intros y Hy. eapply kid_refs; [exact Hc|]. cbn [children flat_map snd]. rewrite app_nil_r. exact Hy. }
    destruct (jref_exact h _ x HE) as (h1 & E1 & HE1); [intros y ->; left; apply Hx; left; auto|].
    rewrite E1. cbn [ebind]. destruct (jput_exact h1 (opt_list x ++ R) (Some i)) as (h2 & E2 & HE2).
    { eapply exact_ext; [exact HE1|]. intros y. tm. lia. }
    rewrite E2. cbn [ebind].
    assert (HK : forall y, In y R -> cell_of h2 y = cell_of h y).
    { intros y Hy. rewrite (jput_keeps _ _ _ _ _ E2 HE2); [|apply in_or_app; right; exact Hy]. apply (jref_cell _ _ _ _ E1). }
    apply fine_and.
    2:{ intros a Ea. destruct j as [j'|]; [|discriminate]. split.
        - intros y Hy Hn. rewrite <- HK by exact Hy. eapply jadd_new_cell; [exact Ea|congruence].
        - split. 2:{ intros b.
            assert (HG2 : grown [] h h2) by (eapply grown_trans; [eapply grown_jref; exact E1|eapply grown_jput; exact E2]).
            assert (HC2 : calm b (Some j') h h2).
            { apply calm_same. intros y c Hc2. apply (jputs_cell _ _ _ _ _ _ E2) in Hc2. rewrite (jref_cell _ _ _ _ E1) in Hc2. exact Hc2. }
            assert (HU2 : unref (Some j') h -> unref (Some j') h2).
            { apply (unref_grown [] _ h h2 HG2). intros k' [= <-]. split; auto. eapply exact_lt; [exact HE|]. right. right. auto. }
            split.
            - intros y d Hy Hn Hd. apply (proj1 HC2 y d Hy Hn). rewrite <- (jadd_new_cell _ _ _ _ _ _ Ea); [exact Hd|congruence].
            - intros HA0 HU. assert (HXX : x <> Some j') by (intros Hq; apply (HU j' eq_refl), Hx; rewrite Hq; left; auto).
              apply (proj2 (calm_jadd_new b _ _ _ _ _ Ea (fun _ => HXX))); [apply HC2; auto|auto]. }
          intros i' [= <-]. pose proof (jadd_new_dots _ _ _ _ _ Ea) as Hd. rewrite Enm in Hd. rewrite (dots_cell h h2 j') in Hd by (apply HK; auto). lia. }
    apply fine_and; [apply jadd_new_exact; auto|]. intros a Ea.
    assert (HG : grown [] h h2) by (eapply grown_trans; [eapply grown_jref; exact E1|eapply grown_jput; exact E2]).
    eapply grown_weak; [|eapply grown_then; [exact HG|eapply grown_jadd_new; exact Ea|]]; [intros y []|auto].
Qed.

(** The reference taken for "." members. *)
Definition hold (pv : nat) (t : option nat) : list nat := match t with Some y => if Nat.eqb y pv then [] else [y] | None => [] end.
Lemma hold_ne pv x : x <> Some pv -> hold pv x = opt_list x.
Proof. destruct x as [y|]; cbn; auto. destruct (Nat.eqb_spec y pv) as [->|]; congruence. Qed.
Lemma pick_exact pv all R : forall ms h toAdd lost, exact h (hold pv toAdd ++ lost ++ R) -> cell_of h pv = Some (CObj all) -> incl ms all -> ~ In pv (refs h) ->
  toAdd = Some pv \/ (toAdd <> Some pv /\ forall x, In x (opt_list toAdd) -> In x (refs h)) ->
  fine (fun r => exact (snd (fst r)) (hold pv (fst (fst r)) ++ snd r ++ R) /\ grown [] h (snd (fst r)) /\
     (fst (fst r) = Some pv \/ (fst (fst r) <> Some pv /\ forall x, In x (opt_list (fst (fst r))) -> In x (refs h)))) (pick_dot h pv ms toAdd lost).
Proof.
  induction ms as [|[k x] ms IH]; intros h toAdd lost HE Hc Hin Hpv Ht; cbn [pick_dot].
  { cbn [fine fst snd]. split; [exact HE|]. split; [apply grown_refl|exact Ht]. }
  destruct (text_eqb k (L ".")).
  2:{ apply IH; auto. intros y Hy. apply Hin. right; auto. }
  assert (Hx : forall i, In i (opt_list x) -> In i (refs h)).
  { intros i Hi. destruct x as [y|]; cbn in Hi; [destruct Hi as [<-|[]]|tauto]. eapply kid_refs; [exact Hc|]. apply (kid_in all k). apply Hin. left; auto. }
  assert (Hxp : x <> Some pv) by (intros ->; apply Hpv, Hx; left; auto).
  destruct (jref_exact h _ x HE) as (h1 & E1 & HE1); [intros i ->; left; apply Hx; left; auto|]. rewrite E1. cbn [ebind].
  pose proof (grown_jref _ _ _ E1) as HG1. pose proof (jref_cell _ _ _ pv E1) as HC1.
  assert (Hsub : forall y, In y (refs h1) -> In y (refs h)).
  { intros y Hy. assert (Hl : y < List.length h).
    { replace (List.length h) with (List.length h1); [eapply exact_lt; [exact HE1|left; exact Hy]|].
      destruct x as [i|]; cbn [jref] in E1; [|injection E1 as <-; auto]. destruct (jget h i) as [o|u]; cbn [ebind] in E1; [|discriminate]. injection E1 as <-. apply jset_len. }
    destruct HG1 as (_ & HG). destruct (HG y Hl Hy) as [|[]]; auto. }
  assert (Hsup : forall y, In y (refs h) -> In y (refs h1)).
  { intros y Hy. destruct x as [i|]; cbn [jref] in E1; [|injection E1 as <-; auto]. destruct (jget h i) as [o|u] eqn:Eg; cbn [ebind] in E1; [|discriminate].
    injection E1 as <-. apply jget_ok in Eg. pose proof (refs_set h i _ (Some {| j_rc := S (j_rc o); j_cell := j_cell o |}) y Eg) as HR. cbn [kids j_cell] in HR. rewrite !times_in in *. lia. }
  set (lost' := match toAdd with Some y => if Nat.eqb y pv then lost else y :: lost | None => lost end).
  assert (HL : forall y, times y lost' = times y (hold pv toAdd) + times y lost).
  { intros y. unfold lost', hold. destruct toAdd as [z|]; [|reflexivity]. destruct (Nat.eqb z pv); tm; lia. }
  eapply fine_imp; [apply (IH h1 x lost')|].
  - rewrite (hold_ne pv x Hxp). eapply exact_ext; [exact HE1|]. intros y. specialize (HL y). tm. lia.
  - rewrite HC1. exact Hc.
  - intros y Hy. apply Hin. right; auto.
  - intros Hp. apply Hpv, Hsub, Hp.
  - right. split; auto.
  - intros [[t h2] l2] (H1 & H2 & H3). cbn [fst snd] in *. split; auto. split; [eapply grown_trans; eauto|].
    destruct H3 as [->|(H3 & H4)]; [left; auto|right; split; auto].
Qed.

(** ** The engine *)
Section EngineH.
Variables (e : env) (cx : ctx) (msg : text).
Definition more (nd : nat) (R : list nat) (j : option nat) (s s' : hst) (ok : bool) : Prop :=
  (forall i, In i R -> j <> Some i -> cell_of (q_h s') i = cell_of (q_h s) i) /\
  (forall i, j = Some i -> ok = false -> cell_of (q_h s') i = cell_of (q_h s) i) /\
  (forall i, j = Some i -> (no_dot cx nd -> dots (q_h s') i = dots (q_h s) i) /\ (one_dot cx nd -> dots (q_h s') i <= S (dots (q_h s) i))) /\
  (tidy cx -> q_lost s' = q_lost s) /\ calm (List.length (q_h s)) j (q_h s) (q_h s').
Definition recF (rec : nat -> nat -> bool -> option nat -> hst -> er (bool * hst)) : Prop :=
  forall nd offs partial j s R, exact (q_h s) (opt_list j ++ q_lost s ++ R) ->
  fine (fun r => (exact (q_h (snd r)) (opt_list j ++ q_lost (snd r) ++ R) /\ grown [] (q_h s) (q_h (snd r))) /\ more nd R j s (snd r) (fst r)) (rec nd offs partial j s).
Variable rec : nat -> nat -> bool -> option nat -> hst -> er (bool * hst).
Hypothesis HR : recF rec.

Lemma alloc_fresh h R c i h' : exact h R -> jalloc h c = (i, h') -> i = List.length h /\ ~ In i (refs h) /\ ~ In i R.
Proof.
  intros HE [= <- <-]. split; auto. split; intros Hi.
  - pose proof (exact_lt h R (List.length h) HE (or_introl Hi)). lia.
  - pose proof (exact_lt h R (List.length h) HE (or_intror Hi)). lia.
Qed.
Lemma repeat_fine : forall f pn wn permit strt lkg arr s R b, unref arr (q_h s) -> exact (q_h s) (opt_list arr ++ q_lost s ++ R) ->
  b <= List.length (q_h s) -> (forall a, arr = Some a -> b <= a) ->
  fine (fun r => exact (q_h (snd r)) (match fst r with Some (_, a) => opt_list a | None => [] end ++ q_lost (snd r) ++ R) /\ grown [] (q_h s) (q_h (snd r)) /\
      (forall p a, fst r = Some (p, Some a) -> b <= a) /\ (forall i, In i R -> i < b -> cell_of (q_h (snd r)) i = cell_of (q_h s) i) /\
      (tidy cx -> one_dot cx pn -> q_lost (snd r) = q_lost s) /\ calm b None (q_h s) (q_h (snd r)) /\
      (forall p a, fst r = Some (p, a) -> unref a (q_h (snd r)))) (repeat_loopH rec f pn wn permit strt lkg arr s).
Proof.
  induction f as [|f IH]; intros pn wn permit strt lkg arr s R b HU HE Hb Ha; cbn [repeat_loopH]; [discriminate|].
  destruct (jalloc (q_h s) (CObj [])) as [pv h0] eqn:E0. pose proof (jalloc_exact _ _ (CObj []) _ _ HE E0) as HE0.
  destruct (alloc_fresh _ _ _ _ _ HE E0) as (Hpv & Hpr & _). pose proof (grown_alloc _ _ _ _ E0) as HG0. cbn [children flat_map] in HG0.
  assert (Hpl : pv < List.length h0) by (eapply exact_lt; [exact HE0|right; left; auto]).
  assert (Hpr0 : ~ In pv (refs h0)).
  { injection E0 as _ <-. rewrite refs_app. cbn [refs flat_map j_cell children]. rewrite !app_nil_r. exact Hpr. }
  eapply fine_bind; [apply (HR pn strt true (Some pv) (q_set_end (q_set_h s h0) None) (opt_list arr ++ R))|].
  { cbn [q_set_end q_set_h q_h q_lost opt_list]. eapply exact_ext; [exact HE0|]. intros y. tm. lia. }
  intros [ok s1] ((HE1 & HG1) & HM1 & _ & HM3 & HM4 & HM5). cbn [fst snd q_set_end q_set_h q_h q_lost] in *.
  assert (HC1 : calm b None (q_h s) (q_h s1)).
  { apply (calm_trans b b None _ h0); [|apply (calm_other b None (Some pv)); [eapply calm_le; [exact HM5|destruct HG0; lia]|intros i [= <-]; lia|intros i [= <-]; exact Hpr0]|auto|].
    - eapply calm_le; [eapply (calm_jalloc _ _ (CObj []) _ _ None HE); [intros y []|exact E0]|exact Hb].
    - intros _ i Hi. discriminate. }
  assert (HF1 : forall i, In i R -> i < b -> cell_of (q_h s1) i = cell_of (q_h s) i).
  { intros i Hi Hib. rewrite HM1; [|apply in_or_app; right; exact Hi|intros [= Hq]; lia]. eapply jalloc_cell; [exact E0|lia]. }
  assert (HD1 : one_dot cx pn -> dots (q_h s1) pv <= 1).
  { intros HO. destruct (HM3 pv eq_refl) as (_ & HX). specialize (HX HO). unfold dots at 2 in HX. rewrite (jalloc_new _ _ _ _ E0) in HX. exact HX. }
  assert (HG01 : grown [] (q_h s) (q_h s1)) by (eapply grown_trans; eauto).
  destruct (negb ok).
  { destruct (jput_exact _ _ _ HE1) as (h1 & E1 & HE1'). rewrite E1. cbn [ebind]. pose proof (grown_jput _ _ _ E1) as HGp. destruct permit.
    - assert (HC2 : calm b None (q_h s) h1).
      { apply (calm_trans b b None _ (q_h s1)); [exact HC1|eapply calm_jput; exact E1|auto|intros _ i Hi; discriminate]. }
      assert (HU1 : unref arr h1).
      { apply (unref_grown [] arr (q_h s) h1); [eapply grown_trans; eauto| |exact HU]. intros i Hi. split; auto. eapply exact_lt; [exact HE|]. right. rewrite Hi. left; auto. }
      cbn [fine fst snd q_set_h q_h q_lost]. split; [eapply exact_ext; [exact HE1'|]; intros y; tm; lia|]. split; [eapply grown_trans; eauto|]. split; [intros p a [= _ Hq]; apply Ha; congruence|]. split; [|split; [intros HT _; apply HM4; exact HT|split; [exact HC2|intros p a [= _ <-]; exact HU1]]].
      intros i Hi Hib. rewrite (jput_keeps _ _ _ _ _ E1 HE1'); [apply HF1; auto|]. apply in_or_app; right; apply in_or_app; right; exact Hi.
    - destruct (jput_exact h1 (q_lost s1 ++ R) arr) as (h2 & E2 & HE2); [eapply exact_ext; [exact HE1'|]; intros y; tm; lia|].
      rewrite E2. cbn [ebind fine fst snd q_set_h q_h q_lost app]. split; auto. split; [|split; [discriminate|split; [|split; [intros HT _; apply HM4; exact HT|split; [|discriminate]]]]].
      + eapply grown_trans; [exact HG01|]. eapply grown_trans; [exact HGp|eapply grown_jput; exact E2].
      + intros i Hi Hib. rewrite (jput_keeps _ _ _ _ _ E2 HE2); [|apply in_or_app; right; exact Hi].
        rewrite (jput_keeps _ _ _ _ _ E1 HE1'); [apply HF1; auto|]. apply in_or_app; right; apply in_or_app; right; exact Hi.
      + apply (calm_trans b b None _ (q_h s1)); [exact HC1| |auto|intros _ i Hi; discriminate].
        apply (calm_trans b b None _ h1); [eapply calm_jput; exact E1|eapply calm_jput; exact E2|auto|intros _ i Hi; discriminate]. }
  cbv zeta.
  assert (Hpr1 : ~ In pv (refs (q_h s1))).
  { intros Hp. destruct HG1 as (_ & HG1). destruct (HG1 pv Hpl Hp) as [|[]]; auto. }
  (* the array *)
  destruct (match arr with Some a => (a, q_h s1) | None => jalloc (q_h s1) (CArr []) end) as [ar h1] eqn:Ea.
  assert (Hap : ar <> pv).
  { destruct arr as [a|].
    - injection Ea as <- _. assert (a < List.length (q_h s)) by (eapply exact_lt; [exact HE|right; left; auto]). lia.
    - destruct (alloc_fresh _ _ _ _ _ HE1 Ea) as (Har & _). destruct HG1. lia. }
  assert (HA : exact h1 (pv :: ar :: q_lost s1 ++ R) /\ grown [] (q_h s) h1 /\ b <= ar /\ ~ In pv (refs h1) /\ (forall i, i < List.length (q_h s1) -> cell_of h1 i = cell_of (q_h s1) i) /\ calm b None (q_h s) h1 /\ ~ In ar (refs h1)).
  { destruct arr as [a|].
    - injection Ea as <- <-. split; [eapply exact_ext; [exact HE1|]; intros y; cbn [opt_list app]; tm; lia|]. split; auto. split; auto. split; auto. split; auto. split; auto.
      apply (unref_grown [] (Some a) (q_h s) (q_h s1) HG01); auto. intros i [= <-]. split; auto. eapply exact_lt; [exact HE|]. right; left; auto.
    - pose proof (jalloc_exact (q_h s1) (opt_list (Some pv) ++ q_lost s1 ++ opt_list None ++ R) (CArr []) _ _ HE1 Ea) as HX.
      destruct (alloc_fresh _ _ _ _ _ HE1 Ea) as (Har & _). pose proof (grown_alloc _ _ _ _ Ea) as HGa. cbn [children flat_map] in HGa.
      split; [eapply exact_ext; [exact HX|]; intros y; cbn [opt_list app]; tm; lia|]. split; [eapply grown_trans; eauto|].
      split; [destruct HG01; lia|]. split; [|split; [intros i Hi; eapply jalloc_cell; [exact Ea|exact Hi]|split]].
      2:{ apply (calm_trans b b None _ (q_h s1)); [exact HC1|eapply calm_le; [eapply (calm_jalloc _ _ (CArr []) _ _ None HE1); [intros y []|exact Ea]|destruct HG01; lia]|auto|intros _ i Hi; discriminate]. }
      2:{ injection Ea as _ <-. rewrite refs_app. cbn [refs flat_map j_cell children]. rewrite !app_nil_r. intros Hi. pose proof (exact_lt _ _ _ HE1 (or_introl Hi)). lia. }
      injection Ea as _ <-. rewrite refs_app. cbn [refs flat_map j_cell children]. rewrite !app_nil_r. exact Hpr1. }
  destruct HA as (HA & HGa & Hba & Hpr2 & HFa & HCa & Har).
  destruct (members_ok h1 (Some pv) _ HA) as (m & Em & Hm); [intros i [= <-]; left; auto|]. rewrite Em. cbn [ebind].
  assert (HP : fine (fun r => (exact (snd (fst r)) (hold pv (fst (fst r)) ++ snd r ++ (pv :: ar :: R)) /\ grown [] h1 (snd (fst r)) /\
     (fst (fst r) = Some pv \/ (fst (fst r) <> Some pv /\ forall x, In x (opt_list (fst (fst r))) -> In x (refs h1)))) /\
     (forall y, cell_of (snd (fst r)) y = cell_of h1 y) /\ (one_dot cx pn -> snd r = q_lost s1))
     (pick_dot h1 pv (match m with Some ms => ms | None => [] end) (Some pv) (q_lost s1))).
  { assert (HA' : exact h1 (hold pv (Some pv) ++ q_lost s1 ++ (pv :: ar :: R))).
    { cbn [hold]. rewrite Nat.eqb_refl. eapply exact_ext; [exact HA|]. intros y. tm. lia. }
    destruct m as [ms|].
    - destruct (Hm ms eq_refl) as (i & [= <-] & Hc). apply fine_and; [apply (pick_exact pv ms); auto; apply incl_refl|].
      intros r Er. destruct (pick_cells pv _ _ _ _ _ Er) as (P1 & P2). split; [exact P1|]. intros HO. apply P2. right. split; auto.
      specialize (HD1 HO). unfold dots in HD1. rewrite <- HFa, Hc in HD1; [exact HD1|]. destruct HG1 as (HG1 & _). lia.
    - cbn [pick_dot fine fst snd]. split; [|auto]. split; [exact HA'|]. split; [apply grown_refl|auto]. }
  eapply fine_bind; [exact HP|]. clear HP. intros [[toAdd h2] lost] ((HP & HGp & HT) & HFp & HLp). cbn [fst snd] in *.
  set (extra := match toAdd with Some y => if Nat.eqb y pv then [] else [pv] | None => [pv] end).
  assert (HX : forall y, times y (hold pv toAdd) + is1 pv y = times y (opt_list toAdd) + times y extra).
  { intros y. unfold hold, extra. destruct toAdd as [z|]; cbn [opt_list]; [destruct (Nat.eqb_spec z pv) as [->|]|]; tm; lia. }
  pose proof (jpush_exact h2 (extra ++ ar :: lost ++ R) ar toAdd) as HPu.
  destruct (jpush h2 ar toAdd) as [h3|u] eqn:E3; cbn [fine ebind] in *.
  2:{ apply HPu; [eapply exact_ext; [exact HP|]; intros y; specialize (HX y); tm; lia|apply in_or_app; right; left; auto]. }
  assert (HE3 : exact h3 (extra ++ ar :: lost ++ R)).
  { apply HPu; [eapply exact_ext; [exact HP|]; intros y; specialize (HX y); tm; lia|apply in_or_app; right; left; auto]. }
  assert (HG3 : grown [] (q_h s) h3).
  { eapply grown_then; [eapply grown_trans; [exact HGa|exact HGp]|eapply grown_jpush; exact E3|]. intros x Hx Hl. right. destruct HT as [->|(_ & HT)].
    - cbn in Hx. destruct Hx as [<-|[]]. lia.
    - apply HT in Hx. destruct HGa as (_ & HGa). destruct (HGa x Hl Hx) as [|[]]; auto. }
  assert (HAr2 : ~ In ar (refs h2) /\ toAdd <> Some ar).
  { assert (Hl1 : ar < List.length h1) by (eapply exact_lt; [exact HA|right; right; left; auto]). split.
    - apply (unref_grown [] (Some ar) h1 h2 HGp); [intros i [= <-]; split; auto|intros i [= <-]; exact Har|reflexivity].
    - intros ->. destruct HT as [HT|(_ & HT)]; [congruence|]. apply Har, HT. left; auto. }
  destruct HAr2 as (HAr2 & HTa).
  assert (HC3 : calm b None (q_h s) h3 /\ ~ In ar (refs h3)).
  { split.
    - apply (calm_trans b b None _ h1); [exact HCa| |auto|intros _ i Hi; discriminate].
      apply (calm_trans b b None _ h2); [apply calm_same; intros y c; rewrite HFp; auto| |auto|intros _ i Hi; discriminate].
      apply (calm_other b None (Some ar)); [apply (calm_jpush b _ _ _ _ E3); auto|intros i [= <-]; exact Hba|intros i [= <-]; exact HAr2].
    - apply (unref_grown (opt_list toAdd) (Some ar) h2 h3 (grown_jpush _ _ _ _ E3)); [|intros i [= <-]; exact HAr2|reflexivity].
      intros i [= <-]. split; [|destruct toAdd as [z|]; cbn; [intros [->|[]]; auto|tauto]].
      destruct HGp as (HGp & _). assert (Hl1 : ar < List.length h1) by (eapply exact_lt; [exact HA|right; right; left; auto]). lia. }
  destruct HC3 as (HC3 & HAr3).
  assert (HE4 : exists h4, match toAdd with Some y => if Nat.eqb y pv then EOk h3 else jput h3 (Some pv) | None => jput h3 (Some pv) end = EOk h4 /\ exact h4 (ar :: lost ++ R) /\ grown [] h3 h4 /\ (forall i, In i R -> cell_of h4 i = cell_of h3 i) /\ calm b None h3 h4).
  { unfold extra in HE3. destruct toAdd as [z|]; [destruct (Nat.eqb z pv)|].
    - exists h3. split; auto. split; auto. split; [apply grown_refl|]. split; auto. apply calm_refl.
    - destruct (jput_exact h3 (ar :: lost ++ R) (Some pv) HE3) as (h4 & E4 & HE4). exists h4. split; auto. split; auto. split; [eapply grown_jput; exact E4|]. split; [|eapply calm_jput; exact E4].
      intros i Hi. eapply jput_keeps; [exact E4|exact HE4|]. right. apply in_or_app; right; exact Hi.
    - destruct (jput_exact h3 (ar :: lost ++ R) (Some pv) HE3) as (h4 & E4 & HE4). exists h4. split; auto. split; auto. split; [eapply grown_jput; exact E4|]. split; [|eapply calm_jput; exact E4].
      intros i Hi. eapply jput_keeps; [exact E4|exact HE4|]. right. apply in_or_app; right; exact Hi. }
  destruct HE4 as (h4 & -> & HE4 & HG4 & HF4 & HC4). cbn [ebind].
  eapply fine_bind; [apply (HR wn (q_pt s1) true None (q_set_end (q_set_pt (q_set_lost (q_set_h s1 h4) lost) 0) None) (ar :: R))|].
  { cbn [q_set_end q_set_pt q_set_lost q_set_h q_h q_lost opt_list]. eapply exact_ext; [exact HE4|]. intros y. tm. lia. }
  intros [ok2 s2] ((HE5 & HG5) & HN1 & _ & _ & HN4 & HN5). cbn [fst snd q_set_end q_set_pt q_set_lost q_set_h q_h q_lost opt_list] in *.
  assert (HF : forall i, In i R -> i < b -> cell_of (q_h s2) i = cell_of (q_h s) i).
  { intros i Hi Hib. rewrite HN1 by (try discriminate; right; exact Hi). rewrite HF4 by exact Hi. rewrite (jpush_cell _ _ _ _ _ E3) by lia.
    rewrite HFp. rewrite HFa; [apply HF1; auto|]. destruct HG01. lia. }
  assert (HL : tidy cx -> one_dot cx pn -> q_lost s2 = q_lost s).
  { intros HTd HO. rewrite (HN4 HTd). rewrite (HLp HO). apply HM4. exact HTd. }
  assert (HC : calm b None (q_h s) (q_h s2)).
  { apply (calm_trans b b None _ h3); [exact HC3| |auto|intros _ i Hi; discriminate].
    apply (calm_trans b b None _ h4); [exact HC4|eapply calm_le; [exact HN5|destruct HG4, HG3; lia]|auto|intros _ i Hi; discriminate]. }
  assert (HU2 : unref (Some ar) (q_h s2)).
  { apply (unref_grown [] (Some ar) h3 (q_h s2)); [eapply grown_trans; eauto| |intros i [= <-]; exact HAr3].
    intros i [= <-]. split; auto. eapply exact_lt; [exact HE3|]. right. apply in_or_app. right. left; auto. }
  assert (HG : grown [] (q_h s) (q_h s2)) by (eapply grown_trans; [exact HG3|eapply grown_trans; eauto]).
  destruct ok2.
  - eapply fine_imp; [apply (IH pn wn permit (q_pt s2) (q_pt s1) (Some ar) s2 R b)|].
    + exact HU2.
    + eapply exact_ext; [exact HE5|]. intros y. cbn [opt_list]. tm. lia.
    + destruct HG; lia.
    + intros a [= <-]. auto.
    + intros [o s3] (H1 & H2 & H3 & H4 & H5 & H6 & H7). cbn [fst snd] in *. split; auto. split; [eapply grown_trans; eauto|]. split; [exact H3|]. split; [|split; [|split; [|exact H7]]].
      * intros i Hi Hib. rewrite H4 by auto. apply HF; auto.
      * intros HTd HO. rewrite (H5 HTd HO). apply HL; auto.
      * apply (calm_trans b b None _ (q_h s2)); [exact HC|exact H6|auto|intros _ i Hi; discriminate].
  - cbn [fine fst snd]. split; [eapply exact_ext; [exact HE5|]; intros y; cbn [opt_list]; tm; lia|]. split; auto. split; [intros p a [= _ <-]; auto|]. split; auto. split; auto. split; auto. intros p a [= _ <-]. exact HU2.
Qed.

Lemma try_fine rf p offs s R : exact (q_h s) (q_lost s ++ R) ->
  (tidy cx -> match p_kind p with KCustom _ => False | KRepeat pn _ _ => one_dot cx pn | KSimple _ => True end) ->
  fine (fun r => exact (q_h (snd r)) (match fst r with Some (_, v) => opt_list v | None => [] end ++ q_lost (snd r) ++ R) /\ grown [] (q_h s) (q_h (snd r)) /\
      (forall q v, fst r = Some (q, Some v) -> List.length (q_h s) <= v) /\ (forall i, In i R -> cell_of (q_h (snd r)) i = cell_of (q_h s) i) /\
      (tidy cx -> q_lost (snd r) = q_lost s) /\ calm (List.length (q_h s)) None (q_h s) (q_h (snd r))) (tryParserH e cx msg rec rf p offs s).
Proof.
  intros HE HTP. assert (Hlt : forall i, In i R -> i < List.length (q_h s)) by (intros i Hi; eapply exact_lt; [exact HE|right; apply in_or_app; right; exact Hi]).
  unfold tryParserH. cbv zeta. destruct (p_kind p) as [m|pn wn permit|ti].
  - destruct (Nat.ltb _ _); [discriminate|]. destruct (run_motif _ _ _ _ _) as [[n v]|k|u].
    + destruct (p_name p).
      * destruct (jnew v (q_h s)) as [x h1] eqn:E. destruct (jnew_exact _ _ _ _ _ HE E) as (H1 & H2 & H3).
        cbn [fine fst snd q_set_h q_h q_lost]. split; auto. split; auto. split; [intros q w [= _ ->]; auto|]. split; [|split; [auto|]].
        2:{ split; [|intros HA _; exact (jnew_acyc _ _ _ _ _ HE E HA)]. intros y c Hy _. destruct (jnew_prefix _ _ _ _ E) as (tt0 & ->). rewrite app_cell by exact Hy. auto. }
        intros i Hi. destruct (jnew_prefix _ _ _ _ E) as (tt0 & ->). apply app_cell; auto.
      * cbn [fine fst snd q_set_h q_h q_lost opt_list app]. split; auto. split; [apply grown_refl|split; [discriminate|split; [auto|split; [auto|apply calm_refl]]]].
    + cbn [fine fst snd app]. split; auto. split; [apply grown_refl|split; [discriminate|split; [auto|split; [auto|apply calm_refl]]]].
    + destruct u; discriminate.
  - eapply fine_bind; [apply (repeat_fine rf pn wn permit offs offs None s R (List.length (q_h s))); auto; try (intros i Hi; discriminate)|].
    intros [[[pos arr]|] s1] (H1 & H2 & H3 & H4 & H5 & H6 & _); cbn [fst snd] in *.
    + destruct (p_name p).
      * cbn [fine fst snd q_set_end q_set_pt q_h q_lost]. split; [exact H1|]. split; [exact H2|]. split; [intros q v Hq; eapply H3; exact Hq|]. auto.
      * destruct (jput_exact _ _ _ H1) as (h1 & E1 & HE1). rewrite E1. cbn [ebind fine fst snd q_set_end q_set_pt q_set_h q_h q_lost opt_list app].
        split; auto. split; [eapply grown_trans; [exact H2|eapply grown_jput; exact E1]|]. split; [discriminate|]. split; [|split; [auto|]].
        2:{ apply (calm_trans _ (List.length (q_h s)) None _ (q_h s1)); [exact H6|eapply calm_jput; exact E1|auto|intros _ i Hi; discriminate]. }
        intros i Hi. rewrite (jput_keeps _ _ _ _ _ E1 HE1); [auto|]. apply in_or_app; right; exact Hi.
    + cbn [fine fst snd q_set_end q_set_pt q_h q_lost]. split; [exact H1|]. split; [exact H2|]. split; [discriminate|]. split; [intros i Hi; apply H4; auto|]. split; [auto|exact H6].
  - destruct (nth_error (c_types cx) ti) as [[? tn]|]; [|discriminate].
    destruct (jalloc (q_h s) (CObj [])) as [v h0] eqn:E0. pose proof (jalloc_exact _ _ (CObj []) _ _ HE E0) as HE0.
    destruct (alloc_fresh _ _ _ _ _ HE E0) as (Hv & _). pose proof (grown_alloc _ _ _ _ E0) as HG0. cbn [children flat_map] in HG0.
    eapply fine_bind; [apply (HR tn offs true (Some v) (q_set_end (q_set_h s h0) None) R)|].
    { exact HE0. }
    intros [ok s1] ((H1 & H2) & HM1 & _ & _ & _ & HM5). cbn [fst snd q_set_end q_set_h q_h q_lost] in *.
    assert (Hur : ~ In v (refs h0)).
    { injection E0 as _ <-. rewrite refs_app. cbn [refs flat_map j_cell children]. rewrite !app_nil_r. intros Hi. pose proof (exact_lt _ _ _ HE (or_introl Hi)). lia. }
    assert (HC : calm (List.length (q_h s)) None (q_h s) (q_h s1)).
    { apply (calm_trans _ (List.length (q_h s)) None _ h0); [eapply (calm_jalloc _ _ (CObj []) _ _ None HE); [intros y []|exact E0]| |auto|intros _ i Hi; discriminate].
      apply (calm_other _ None (Some v)); [eapply calm_le; [exact HM5|destruct HG0; lia]|intros i [= <-]; lia|intros i [= <-]; exact Hur]. }
    assert (HF : forall i, In i R -> cell_of (q_h s1) i = cell_of (q_h s) i).
    { intros i Hi. rewrite HM1; [|exact Hi|intros [= Hq]; specialize (Hlt i Hi); lia]. eapply jalloc_cell; [exact E0|auto]. }
    destruct ok.
    + cbn [fine fst snd q_set_end q_set_pt q_h q_lost]. split; auto. split; [eapply grown_trans; eauto|]. split; [intros q w [= _ <-]; lia|]. split; [auto|split; [intros HTd; destruct (HTP HTd)|exact HC]].
    + cbn [fine fst snd q_set_end q_set_pt q_set_lost q_h q_lost app]. split; [exact H1|]. split; [eapply grown_trans; eauto|split; [discriminate|split; [auto|split; [intros HTd; destruct (HTP HTd)|exact HC]]]].
Qed.

Lemma from_child nd n p q : get_node (c_nodes cx) nd = EOk n -> In p (n_parsers n) -> field_from cx (p_child p) q -> field_from cx nd q.
Proof. intros Hn Hp (b & m & H1 & H2). exists b, m. split; auto. eapply leads_field; eauto. Qed.
Lemma from_self nd n p : get_node (c_nodes cx) nd = EOk n -> In p (n_parsers n) -> field_from cx nd p.
Proof. intros Hn Hp. exists nd, n. split; auto. apply leads_self. Qed.
Lemma loop_fine rf nd n : get_node (c_nodes cx) nd = EOk n -> forall ps offs partial lpt j s R, incl ps (n_parsers n) -> exact (q_h s) (opt_list j ++ q_lost s ++ R) ->
  fine (fun r => (exact (q_h (snd r)) (opt_list j ++ q_lost (snd r) ++ R) /\ grown [] (q_h s) (q_h (snd r))) /\ more nd R j s (snd r) (fst r)) (parser_loopH e cx msg rec rf nd ps offs partial lpt j s).
Proof.
  intros Hn. induction ps as [|p ps IH]; intros offs partial lpt j s R Hin HE; cbn [parser_loopH].
  { cbn. split; [split; auto; apply grown_refl|]. split; [auto|]. split; [auto|]. split; auto. split; auto. apply calm_refl. }
  assert (Hp : In p (n_parsers n)) by (apply Hin; left; auto). assert (Hin' : incl ps (n_parsers n)) by (intros y Hy; apply Hin; right; auto).
  eapply fine_bind; [apply (try_fine rf p offs s (opt_list j ++ R)); [eapply exact_ext; [exact HE|]; intros y; tm; lia|intros HTd; exact (HTd nd n p Hn Hp)]|].
  intros [[[pos v]|] s1] (H1 & H2 & H3 & HF1 & HL1 & HK1); cbn [fst snd] in *;
  assert (Hj0 : forall i, j = Some i -> i < List.length (q_h s)) by (intros i ->; eapply exact_lt; [exact HE|right; left; auto]);
  assert (HC1 : calm (List.length (q_h s)) j (q_h s) (q_h s1)) by (apply (calm_other _ j None); [exact HK1|intros i Hi; discriminate|intros i Hi; discriminate]);
  assert (HU1 : unref j (q_h s) -> unref j (q_h s1)) by (apply (unref_grown [] j _ _ H2); intros i Hi; split; auto).
  2:{ eapply fine_imp; [apply (IH offs partial lpt j (q_set_pt s1 (Nat.max (q_pt s1) lpt)) R Hin')|].
      - cbn [q_set_pt q_h q_lost]. eapply exact_ext; [exact H1|]. intros y. tm. lia.
      - intros [ok s2] ((H4 & H5) & M1 & M2 & M3 & M4 & M5). cbn [fst snd q_set_pt q_h q_lost] in *. split; [split; auto; eapply grown_trans; eauto|]. split; [|split; [|split; [|split]]].
        5:{ apply (calm_trans _ _ j _ _ _ HC1 M5); [destruct H2; lia|exact HU1]. }
        + intros i Hi Hne. rewrite M1 by auto. apply HF1. apply in_or_app; right; exact Hi.
        + intros i -> Hk. rewrite M2 by auto. apply HF1. left; auto.
        + intros i ->. rewrite <- (dots_cell (q_h s) (q_h s1) i); [apply M3; auto|]. apply HF1. left; auto.
        + intros HTd. rewrite M4 by exact HTd. auto. }
  eapply fine_bind; [apply (HR (p_child p) pos partial j s1 (opt_list v ++ R)); eapply exact_ext; [exact H1|]; intros y; tm; lia|].
  intros [ok s2] ((H4 & H5) & M1 & M2 & M3 & M4 & M5). cbn [fst snd] in *.
  assert (Hjv : j = None \/ j <> v).
  { destruct j as [i|]; [right|left; auto]. intros <-. specialize (H3 _ _ eq_refl).
    assert (Hi : i < List.length (q_h s)) by (eapply exact_lt; [exact HE|right; left; auto]). lia. }
  assert (HG2 : grown [] (q_h s) (q_h s2)) by (eapply grown_trans; eauto).
  assert (HF2 : forall i, In i R -> j <> Some i -> cell_of (q_h s2) i = cell_of (q_h s) i).
  { intros i Hi Hne. rewrite M1; [apply HF1; apply in_or_app; right; exact Hi|apply in_or_app; right; exact Hi|exact Hne]. }
  assert (HC2 : calm (List.length (q_h s)) j (q_h s) (q_h s2)) by (apply (calm_trans _ _ j _ _ _ HC1 M5); [destruct H2; lia|exact HU1]).
  assert (HU2 : unref j (q_h s) -> unref j (q_h s2)) by (apply (unref_grown [] j _ _ HG2); intros i Hi; split; auto).
  assert (HD1 : forall i, j = Some i -> dots (q_h s1) i = dots (q_h s) i).
  { intros i ->. apply dots_cell. apply HF1. left; auto. }
  destruct ok.
  - eapply fine_bind; [apply (fix_exact p v j (q_h s2) (opt_list j ++ q_lost s2 ++ R) Hjv)|].
    + eapply exact_ext; [exact H4|]. intros y. tm. lia.
    + intros i ->. left; auto.
    + intros h1 ((HE1 & HG1) & HF3 & HD3 & HC3). cbv zeta. cbn [fine]. cbn [fst snd].
      match goal with |- context [more nd R j s ?S true] => set (s3 := S) end.
      assert (EH : q_h s3 = h1) by (unfold s3; destruct (opt_rule (c_opts cx)); reflexivity).
      assert (EL : q_lost s3 = q_lost s2) by (unfold s3; destruct (opt_rule (c_opts cx)); reflexivity).
      unfold more. rewrite EH, EL. split; [split; auto|split; [|split; [discriminate|split; [|split]]]].
      5:{ apply (calm_trans _ (List.length (q_h s)) j _ _ _ HC2 (HC3 _)); [auto|exact HU2]. }
      * eapply grown_then; [exact HG2|exact HG1|]. intros x Hx Hl. destruct v as [w|]; cbn in Hx; [destruct Hx as [<-|[]]|tauto].
        specialize (H3 _ _ eq_refl). lia.
      * intros i Hi Hne. rewrite HF3; [auto|apply in_or_app; right; apply in_or_app; right; exact Hi|exact Hne].
      * intros i Hj. destruct (HD3 i Hj) as (D1 & D2). destruct (M3 i Hj) as (D3 & D4). specialize (HD1 i Hj). split.
        -- intros Hno. rewrite D2 by (apply Hno; eapply from_self; eauto). rewrite D3 by (intros q Hq; apply Hno; eapply from_child; eauto). exact HD1.
        -- intros Hone. assert (Hc : one_dot cx (p_child p)) by (intros q Hq Hd; apply Hone; auto; eapply from_child; eauto). specialize (D4 Hc).
           destruct (list_eq_dec ascii_dec (match p_name p with Some t => t | None => [] end) (L ".")) as [Ed|Ed].
           ++ assert (Hnm : p_name p = Some (L ".")) by (destruct (p_name p); [congruence|discriminate]).
              rewrite D3 in D1 by (apply Hone; [eapply from_self; eauto|exact Hnm]). lia.
           ++ rewrite D2 by (intros Hq; rewrite Hq in Ed; congruence). lia.
      * intros HTd. rewrite M4 by exact HTd. auto.
  - destruct (jput_exact (q_h s2) (opt_list j ++ q_lost s2 ++ R) v) as (h1 & E1 & HE1); [eapply exact_ext; [exact H4|]; intros y; tm; lia|].
    rewrite E1. cbn [ebind]. eapply fine_imp; [apply (IH offs partial pos j (q_set_pt (q_set_h s2 h1) (Nat.max (q_pt s2) pos)) R Hin'); exact HE1|].
    intros [ok s3] ((H6 & H7) & N1 & N2 & N3 & N4 & N5). cbn [fst snd q_set_pt q_set_h q_h q_lost] in *.
    assert (HJ : forall i, j = Some i -> cell_of h1 i = cell_of (q_h s) i).
    { intros i ->. rewrite (jput_keeps _ _ _ _ _ E1 HE1); [|left; auto]. rewrite M2 by auto. apply HF1. left; auto. }
    pose proof (grown_jput _ _ _ E1) as HGp.
    split; [split; auto|split; [|split; [|split; [|split]]]].
    6:{ apply (calm_trans _ (List.length h1) j _ h1); [|exact N5|destruct HG2, HGp; lia|].
        - apply (calm_trans _ (List.length (q_h s)) j _ _ _ HC2); [eapply calm_jput; exact E1|auto|exact HU2].
        - intros HU. apply (unref_grown [] j _ _ HGp); [|apply HU2, HU]. intros i Hi. split; auto. specialize (Hj0 i Hi). destruct HG2; lia. }
    + eapply grown_trans; [exact HG2|]. eapply grown_trans; [eapply grown_jput; exact E1|exact H7].
    + intros i Hi Hne. rewrite N1 by auto. rewrite (jput_keeps _ _ _ _ _ E1 HE1); [auto|]. apply in_or_app; right; apply in_or_app; right; exact Hi.
    + intros i Hj Hk. rewrite N2 by auto. auto.
    + intros i Hj. rewrite <- (dots_cell (q_h s) h1 i) by auto. apply N3; exact Hj.
    + intros HTd. rewrite N4 by exact HTd. rewrite M4 by exact HTd. auto.
Qed.
Lemma step_fine rf : recF (norm_stepH e cx msg rec rf).
Proof.
  intros nd offs partial j s R HE. unfold norm_stepH, nodeH. destruct (get_node (c_nodes cx) nd) as [n|u] eqn:Hn; cbn [ebind]; [|discriminate].
  eapply fine_bind; [apply (loop_fine rf nd n Hn); [apply incl_refl|exact HE]|]. intros [ok s1] (H1 & M1 & M2 & M3 & M4 & M5).
  destruct (_ && _)%bool; cbn [fine fst snd] in *; (split; [exact H1|]); (split; [exact M1|]); (split; [|split; [exact M3|split; [exact M4|exact M5]]]); [discriminate|exact M2].
Qed.
End EngineH.
Lemma recH_fine e cx msg : forall fuel, recF cx (normalizeRecH e cx msg fuel).
Proof.
  induction fuel as [|f IH]; intros nd offs partial j s R HE; cbn [normalizeRecH]; [discriminate|]. apply (step_fine e cx msg _ IH f). exact HE.
Qed.

(** ** The rest of ln_normalize *)
Lemma leaf_exact h R j k v : exact h R -> In j R -> fine (fun h' => exact h' R) (add_leaf h j k v).
Proof.
  intros HE Hj. unfold add_leaf. destruct (jalloc h (CLeaf v)) as [x h1] eqn:E. pose proof (jalloc_exact h R (CLeaf v) _ _ HE E) as HE1.
  apply jadd_exact; auto. intros i [= <-]. exact Hj.
Qed.
Lemma ops_exact R j : In j R -> forall ops h, exact h R -> fine (fun h' => exact h' R) (annot_opsH ops j h).
Proof.
  intros Hj. induction ops as [|[[n|] [v|]|n] ops IH]; intros h HE; cbn [annot_opsH]; try discriminate; auto.
  eapply fine_bind; [apply leaf_exact; [exact HE|exact Hj]|]. intros h1 H1. apply IH; exact H1.
Qed.
Lemma annotate_exact as_ tags R j h : In j R -> exact h R -> fine (fun h' => exact h' R) (annotateH as_ tags j h).
Proof.
  intros Hj. unfold annotateH. destruct as_ as [|a as_]; [auto|]. generalize (rev (tag_texts tags)) as ts. intros ts. revert h.
  induction ts as [|t ts IH]; intros h HE; cbn [annotate_tagsH]; auto.
  eapply fine_bind; [|intros h1 H1; apply IH; exact H1]. destruct (findAnnot (a :: as_) t); [apply ops_exact; auto|exact HE].
Qed.
Lemma metadata_exact cx n rule j h R : In j R -> exact h R -> fine (fun h' => exact h' R) (add_metadataH cx n rule j h).
Proof.
  intros Hj HE. unfold add_metadataH.
  eapply (fine_bind (fun r => exact (snd r) (opt_list (fst r) ++ R))).
  { destruct (opt_rule (c_opts cx)); [|exact HE]. destruct (filter _ rule) as [|a r]; [discriminate|].
    destruct (jalloc h (CObj [])) as [mr h1] eqn:E. pose proof (jalloc_exact h R (CObj []) _ _ HE E) as HE1.
    eapply fine_bind; [apply leaf_exact; [exact HE1|left; auto]|]. intros h2 H2. exact H2. }
  intros [mr h1] H1. cbn [fst snd] in H1.
  eapply (fine_bind (fun r => exact (snd r) (opt_list (fst r) ++ R))).
  { destruct (opt_loc (c_opts cx)); [|exact H1]. destruct (n_file n) as [f|]; [|discriminate].
    destruct (match mr with Some x => (x, h1) | None => jalloc h1 (CObj []) end) as [m h2] eqn:Em.
    assert (H2 : exact h2 (m :: R)).
    { destruct mr as [x|]; [injection Em as <- <-; exact H1|]. exact (jalloc_exact h1 R (CObj []) _ _ H1 Em). }
    destruct (jalloc h2 (CObj [])) as [lo h3] eqn:E3. pose proof (jalloc_exact h2 _ (CObj []) _ _ H2 E3) as H3.
    eapply fine_bind; [apply leaf_exact; [exact H3|left; auto]|]. intros h4 H4.
    eapply fine_bind; [apply leaf_exact; [exact H4|left; auto]|]. intros h5 H5.
    eapply fine_bind; [apply (jadd_exact h5 (m :: R) (Some m) _ (Some lo)); [exact H5|intros i [= <-]; left; auto]|]. intros h6 H6. exact H6. }
  intros [mr' h2] H2. cbn [fst snd] in H2. destruct mr' as [m|]; [|exact H2].
  destruct (jalloc h2 (CObj [])) as [me h3] eqn:E3. pose proof (jalloc_exact h2 _ (CObj []) _ _ H2 E3) as H3.
  eapply fine_bind; [apply (jadd_exact h3 (me :: R) (Some me) _ (Some m)); [eapply exact_ext; [exact H3|]; intros y; cbn [opt_list]; tm; lia|intros i [= <-]; left; auto]|].
  intros h4 H4. apply jadd_exact; [exact H4|]. intros i [= <-]. exact Hj.
Qed.
Lemma normalizeH_fine e cx msg fuel tg ev h R : exact h (ev :: R) -> (forall n t, tg n = Some t -> In t R) ->
  fine (fun r => exact (snd (fst r)) (ev :: snd r ++ R) /\ (tidy cx -> snd r = [])) (normalizeH e cx msg fuel tg ev h).
Proof.
  intros HE HT. unfold normalizeH.
  eapply fine_bind; [apply (recH_fine e cx msg fuel (c_root cx) 0 false (Some ev) {| q_pt := 0; q_end := None; q_rule := []; q_h := h; q_lost := [] |} R); exact HE|].
  intros [ok s] ((H1 & _) & _ & _ & _ & HL & _). cbn [fst snd opt_list app q_lost] in *. destruct ok.
  - destruct (q_end s) as [en|]; [|discriminate]. unfold nodeH. destruct (get_node (c_nodes cx) en) as [n|u]; [|discriminate]. cbn [ebind].
    assert (Hev : In ev (ev :: q_lost s ++ R)) by (left; auto).
    eapply (fine_bind (fun h' => exact h' (ev :: q_lost s ++ R))).
    { destruct (n_tags n) as [tags|]; [|exact H1].
      destruct (jref_exact (q_h s) _ (tg en) H1) as (h1 & E1 & HE1); [intros i Hi; right; right; apply in_or_app; right; eapply HT; exact Hi|].
      rewrite E1. cbn [ebind]. eapply fine_bind; [apply (jadd_exact h1 (ev :: q_lost s ++ R)); [exact HE1|intros i [= <-]; exact Hev]|].
      intros h2 H2. apply annotate_exact; auto. }
    intros h1 HE1. eapply (fine_bind (fun h' => exact h' (ev :: q_lost s ++ R))).
    { destruct (opt_orig (c_opts cx)); [apply leaf_exact; auto|exact HE1]. }
    intros h2 H2. eapply fine_bind; [apply metadata_exact; [exact Hev|exact H2]|]. intros h3 H3. split; [exact H3|exact HL].
  - destruct (Nat.ltb _ _); [discriminate|].
    eapply fine_bind; [apply leaf_exact; [exact H1|left; auto]|]. intros h2 H2.
    eapply fine_bind; [apply leaf_exact; [exact H2|left; auto]|]. intros h3 H3. split; [exact H3|exact HL].
Qed.

(** ** The memory after a call *)
Record inv (b ev : nat) (h0 : jheap) (R J : list nat) (h : jheap) : Prop := {
  i_exact : exact h R;
  i_acyc : acyclic h;
  i_unref : forall j, In j J -> In j R /\ ~ In j (refs h);
  i_new : forall j, In j J -> j = ev \/ b <= j;
  i_surv : forall y c, y < b -> y <> ev -> cell_of h y = Some c -> cell_of h0 y = Some c;
  i_len : b <= List.length h }.
Lemma inv_weak b ev h0 R J J' h : inv b ev h0 R J h -> incl J' J -> inv b ev h0 R J' h.
Proof. intros [H1 H2 H3 H4 H5 H6] HI. split; auto. Qed.
Lemma inv_ext b ev h0 R R' J h : inv b ev h0 R J h -> (forall x, times x R = times x R') -> inv b ev h0 R' J h.
Proof.
  intros [H1 H2 H3 H4 H5 H6] HI. split; auto; [eapply exact_ext; eauto|]. intros j Hj. destruct (H3 j Hj) as (H7 & H8). split; auto.
  rewrite times_in in *. rewrite <- HI. exact H7.
Qed.
Lemma inv_alloc b ev h0 R J h c i h' : children c = [] -> inv b ev h0 R J h -> jalloc h c = (i, h') -> inv b ev h0 (i :: R) (i :: J) h'.
Proof.
  intros Hc [H1 H2 H3 H4 H5 H6] E.
  assert (HCm : calm (List.length h) None h h') by (eapply calm_jalloc; [exact H1|rewrite Hc; intros y []|exact E]).
  assert (HE' : exact h' (i :: R)) by (eapply jalloc_exact; [rewrite Hc; exact H1|exact E]).
  assert (Hi : i = List.length h) by (injection E as <- _; auto).
  assert (HRf : refs h' = refs h) by (injection E as _ <-; rewrite refs_app; cbn [refs flat_map j_cell]; rewrite Hc, !app_nil_r; reflexivity).
  split; auto.
  - apply (proj2 HCm); auto. intros k Hk. discriminate.
  - intros j [<-|Hj].
    + split; [left; auto|]. rewrite HRf, Hi. intros Hx. pose proof (exact_lt _ _ _ H1 (or_introl Hx)). lia.
    + destruct (H3 j Hj) as (H7 & H8). split; [right; auto|]. rewrite HRf. exact H8.
  - intros j [<-|Hj]; [right; lia|auto].
  - intros y d Hy Hn Hd. apply H5; auto. apply (proj1 HCm); [lia|discriminate|exact Hd].
  - injection E as _ <-. rewrite app_length. lia.
Qed.
Lemma inv_add b ev h0 R J J' h j k v : inv b ev h0 (opt_list v ++ R) J h -> incl J' J -> In j J' -> (forall y, v = Some y -> ~ In y J') -> (forall y, In y J' -> In y R) ->
  fine (inv b ev h0 R J') (jadd h (Some j) k v).
Proof.
  intros [H1 H2 H3 H4 H5 H6] HI Hj Hv HR. eapply fine_imp; [apply fine_and; [apply (jadd_exact h R (Some j) k v H1); intros i [= <-]; auto|intros h' E; exact E]|].
  intros h' (HE & E). pose proof (grown_jadd _ _ _ _ _ E) as HG.
  assert (Hvj : v <> Some j) by (intros ->; exact (Hv j eq_refl Hj)).
  assert (HC : calm b (Some j) h h') by (apply (calm_jadd b _ _ _ _ _ E); auto). split; auto.
  - apply (proj2 HC); auto. intros i [= <-]. apply H3. auto.
  - intros i Hi. split; auto. apply (unref_grown _ (Some i) _ _ HG); [|intros i' [= <-]; apply H3; auto|reflexivity].
    intros i' [= <-]. split; [eapply exact_lt; [exact H1|right; apply in_or_app; right; auto]|]. destruct v as [y|]; cbn; [intros [<-|[]]; exact (Hv y eq_refl Hi)|tauto].
  - intros y c Hy Hn Hc. apply H5; auto. apply (proj1 HC); auto. intros [= ->]. destruct (H4 y (HI _ Hj)); [auto|lia].
  - destruct HG. lia.
Qed.
Lemma inv_leaf b ev h0 R J h j k v : inv b ev h0 R J h -> In j J -> fine (inv b ev h0 R J) (add_leaf h j k v).
Proof.
  intros HI Hj. unfold add_leaf. destruct (jalloc h (CLeaf v)) as [x h1] eqn:E. pose proof (inv_alloc _ _ _ _ _ _ (CLeaf v) _ _ eq_refl HI E) as HI1.
  apply (inv_add b ev h0 R (x :: J)); auto; [intros y Hy; right; auto| |intros y Hy; apply (i_unref _ _ _ _ _ _ HI); auto].
  intros y [= <-] Hx. pose proof (exact_lt _ _ _ (i_exact _ _ _ _ _ _ HI) (or_intror (proj1 (i_unref _ _ _ _ _ _ HI x Hx)))). injection E as <- _. lia.
Qed.
Lemma inv_ref b ev h0 R J h x : inv b ev h0 R J h -> (forall i, x = Some i -> In i R) -> exists h', jref h x = EOk h' /\ inv b ev h0 (opt_list x ++ R) J h'.
Proof.
  intros [H1 H2 H3 H4 H5 H6] Hx. destruct (jref_exact h R x H1) as (h' & E & HE); [auto|]. exists h'. split; auto.
  pose proof (grown_jref _ _ _ E) as HG. split; auto.
  - apply (proj2 (calm_jref b None _ _ _ E)); auto. intros i Hi. discriminate.
  - intros j Hj. destruct (H3 j Hj) as (H7 & H8). split; [apply in_or_app; right; auto|]. apply (unref_grown _ (Some j) _ _ HG); [|intros i [= <-]; auto|reflexivity].
    intros i [= <-]. split; auto. eapply exact_lt; [exact H1|right; auto].
  - intros y c Hy Hn Hc. rewrite (jref_cell _ _ _ _ E) in Hc. auto.
  - destruct HG. lia.
Qed.
Section Rest.
Variables (b ev : nat) (h0 : jheap) (R : list nat).
Local Notation Inv := (inv b ev h0 (ev :: R) [ev]).
Lemma inv_ops : forall ops h, Inv h -> fine Inv (annot_opsH ops ev h).
Proof.
  induction ops as [|[[n|] [v|]|n] ops IH]; intros h HE; cbn [annot_opsH]; try discriminate; auto.
  eapply fine_bind; [apply inv_leaf; [exact HE|left; auto]|]. intros h1 H1. apply IH; exact H1.
Qed.
Lemma inv_annotate as_ tags h : Inv h -> fine Inv (annotateH as_ tags ev h).
Proof.
  unfold annotateH. destruct as_ as [|a as_]; [auto|]. generalize (rev (tag_texts tags)) as ts. intros ts. revert h.
  induction ts as [|t ts IH]; intros h HE; cbn [annotate_tagsH]; auto.
  eapply fine_bind; [|intros h1 H1; apply IH; exact H1]. destruct (findAnnot (a :: as_) t); [apply inv_ops; auto|exact HE].
Qed.
Lemma inv_metadata cx n rule h : Inv h -> fine Inv (add_metadataH cx n rule ev h).
Proof.
  intros HE. unfold add_metadataH.
  assert (Hfr : forall m (h : jheap) i h', inv b ev h0 (opt_list m ++ ev :: R) (opt_list m ++ [ev]) h -> jalloc h (CObj []) = (i, h') -> i <> ev /\ Some i <> m).
    { intros m g i g' HI E. assert (Hev : ev < List.length g) by (eapply exact_lt; [apply (i_exact _ _ _ _ _ _ HI)|right; apply in_or_app; right; left; auto]).
      assert (Hm : forall k, m = Some k -> k < List.length g) by (intros k ->; eapply exact_lt; [apply (i_exact _ _ _ _ _ _ HI)|right; left; auto]).
      injection E as <- _. split; [lia|]. intros <-. specialize (Hm _ eq_refl). lia. }
  eapply (fine_bind (fun r => inv b ev h0 (opt_list (fst r) ++ ev :: R) (opt_list (fst r) ++ [ev]) (snd r) /\ forall m, fst r = Some m -> m <> ev)).
  { destruct (opt_rule (c_opts cx)); [|split; [exact HE|discriminate]]. destruct (filter _ rule) as [|a r]; [discriminate|].
    destruct (jalloc h (CObj [])) as [mr h1] eqn:E. pose proof (inv_alloc _ _ _ _ _ _ (CObj []) _ _ eq_refl HE E) as HE1.
    eapply fine_bind; [apply inv_leaf; [exact HE1|left; auto]|]. intros h2 H2. split; [exact H2|]. intros m [= <-]. apply (Hfr None _ _ _ HE E). }
  intros [mr h1] (H1 & Hmr). cbn [fst snd] in H1, Hmr.
  eapply (fine_bind (fun r => inv b ev h0 (opt_list (fst r) ++ ev :: R) (opt_list (fst r) ++ [ev]) (snd r) /\ forall m, fst r = Some m -> m <> ev)).
  { destruct (opt_loc (c_opts cx)); [|split; [exact H1|exact Hmr]]. destruct (n_file n) as [f|]; [|discriminate].
    destruct (match mr with Some x => (x, h1) | None => jalloc h1 (CObj []) end) as [m h2] eqn:Em.
    assert (H2 : inv b ev h0 (m :: ev :: R) [m; ev] h2 /\ m <> ev).
    { destruct mr as [x|]; [injection Em as <- <-; split; [exact H1|auto]|]. split; [exact (inv_alloc _ _ _ _ _ _ (CObj []) _ _ eq_refl H1 Em)|]. apply (Hfr None _ _ _ H1 Em). }
    destruct H2 as (H2 & Hme). destruct (jalloc h2 (CObj [])) as [lo h3] eqn:E3. pose proof (inv_alloc _ _ _ _ _ _ (CObj []) _ _ eq_refl H2 E3) as H3.
    destruct (Hfr (Some m) _ _ _ H2 E3) as (Hl1 & Hl2).
    eapply fine_bind; [apply inv_leaf; [exact H3|left; auto]|]. intros h4 H4.
    eapply fine_bind; [apply inv_leaf; [exact H4|left; auto]|]. intros h5 H5.
    eapply fine_bind; [apply (inv_add b ev h0 (m :: ev :: R) [lo; m; ev] [m; ev]); [exact H5|intros y Hy; right; auto|left; auto| |]|].
    - intros y [= <-] [Hq|[Hq|[]]]; congruence.
    - intros y [<-|[<-|[]]]; [left; auto|right; left; auto].
    - intros h6 H6. split; [exact H6|]. cbn [fst]. intros k [= <-]. exact Hme. }
  intros [mr' h2] (H2 & Hne). cbn [fst snd] in H2, Hne. destruct mr' as [m|]; [|exact H2].
  destruct (jalloc h2 (CObj [])) as [me h3] eqn:E3. pose proof (inv_alloc _ _ _ _ _ _ (CObj []) _ _ eq_refl H2 E3) as H3.
  assert (Hmm : me <> m /\ me <> ev).
  { assert (m < List.length h2) by (eapply exact_lt; [apply (i_exact _ _ _ _ _ _ H2)|right; left; auto]).
    assert (ev < List.length h2) by (eapply exact_lt; [apply (i_exact _ _ _ _ _ _ H2)|right; right; left; auto]). injection E3 as <- _. lia. }
  destruct Hmm as (Hm1 & Hm2). specialize (Hne m eq_refl).
  eapply fine_bind; [apply (inv_add b ev h0 (me :: ev :: R) (me :: m :: [ev]) [me; ev] h3 me _ (Some m)); [eapply inv_ext; [exact H3|]; intros y; cbn [opt_list app]; tm; lia| |left; auto| |]|].
  - intros y [<-|[<-|[]]]; [left; auto|right; right; left; auto].
  - intros y [= <-] [Hq|[Hq|[]]]; congruence.
  - intros y [<-|[<-|[]]]; [left; auto|right; left; auto].
  - intros h4 H4. apply (inv_add b ev h0 (ev :: R) [me; ev] [ev] h4 ev _ (Some me)); [exact H4|intros y [<-|[]]; right; left; auto|left; auto| |].
    + intros y [= <-] [Hq|[]]; congruence.
    + intros y [<-|[]]. left; auto.
Qed.
End Rest.
Lemma normalizeH_inv e cx msg fuel tg ev h R : exact h (ev :: R) -> acyclic h -> ~ In ev (refs h) -> (forall n t, tg n = Some t -> In t R /\ t <> ev) ->
  fine (fun r => inv (List.length h) ev h (ev :: snd r ++ R) [ev] (snd (fst r)) /\ (tidy cx -> snd r = [])) (normalizeH e cx msg fuel tg ev h).
Proof.
  intros HE HA HU HT. unfold normalizeH. assert (Hev : ev < List.length h) by (eapply exact_lt; [exact HE|right; left; auto]).
  eapply fine_bind; [apply (recH_fine e cx msg fuel (c_root cx) 0 false (Some ev) {| q_pt := 0; q_end := None; q_rule := []; q_h := h; q_lost := [] |} R); exact HE|].
  intros [ok s] ((H1 & HG) & _ & _ & _ & HL & HC). cbn [fst snd opt_list app q_lost q_h] in *.
  assert (HUe : unref (Some ev) h) by (intros i [= <-]; exact HU).
  assert (HI : inv (List.length h) ev h (ev :: q_lost s ++ R) [ev] (q_h s)).
  { split; auto.
    - apply (proj2 HC); auto.
    - intros j [<-|[]]. split; [left; auto|]. apply (unref_grown [] (Some ev) _ _ HG); [|exact HUe|reflexivity]. intros i [= <-]. split; auto.
    - intros j [<-|[]]. auto.
    - intros y c Hy Hn Hc. apply (proj1 HC); auto; congruence.
    - destruct HG. lia. }
  destruct ok.
  - destruct (q_end s) as [en|]; [|discriminate]. unfold nodeH. destruct (get_node (c_nodes cx) en) as [n|u]; [|discriminate]. cbn [ebind].
    eapply (fine_bind (inv (List.length h) ev h (ev :: q_lost s ++ R) [ev])).
    { destruct (n_tags n) as [tags|]; [|exact HI].
      destruct (inv_ref (List.length h) ev h _ [ev] (q_h s) (tg en) HI) as (h1 & E1 & HE1); [intros i Hi; right; apply in_or_app; right; apply (HT _ _ Hi)|].
      rewrite E1. cbn [ebind]. eapply fine_bind; [|intros h2 H2; apply inv_annotate; exact H2].
      destruct (tg en) as [t|] eqn:Et.
      - destruct (HT _ _ Et) as (_ & Hne). apply (inv_add (List.length h) ev h (ev :: q_lost s ++ R) [ev] [ev] h1 ev _ (Some t)); [exact HE1|apply incl_refl|left; auto|intros y [= <-] [Hq|[]]; congruence|intros y [<-|[]]; left; auto].
      - apply (inv_add (List.length h) ev h (ev :: q_lost s ++ R) [ev] [ev] h1 ev _ None); [exact HE1|apply incl_refl|left; auto|discriminate|intros y [<-|[]]; left; auto]. }
    intros h1 HE1. eapply (fine_bind (inv (List.length h) ev h (ev :: q_lost s ++ R) [ev])).
    { destruct (opt_orig (c_opts cx)); [apply inv_leaf; [exact HE1|left; auto]|exact HE1]. }
    intros h2 H2. eapply fine_bind; [apply inv_metadata; exact H2|]. intros h3 H3. split; [exact H3|exact HL].
  - destruct (Nat.ltb _ _); [discriminate|].
    eapply fine_bind; [apply inv_leaf; [exact HI|left; auto]|]. intros h2 H2.
    eapply fine_bind; [apply inv_leaf; [exact H2|left; auto]|]. intros h3 H3. split; [exact H3|exact HL].
Qed.

(** ** Everything is freed *)
Lemma alive_cell h x : alive h x <-> exists c, cell_of h x = Some c.
Proof.
  unfold alive, cell_of. split.
  - intros (o & ->). eauto.
  - intros (c & H). destruct (nth_error h x) as [[o|]|]; try discriminate. eauto.
Qed.
Lemma refs_parent h y : In y (refs h) -> exists x c, cell_of h x = Some c /\ In y (children c).
Proof.
  intros H. unfold refs in H. apply in_flat_map in H as ([o|] & H1 & H2); [|destruct H2]. apply In_nth_error in H1 as (x & Hx).
  exists x, (j_cell o). unfold cell_of. rewrite Hx. auto.
Qed.
Lemma reach_all (P : nat -> Prop) h R : exact h R -> acyclic h -> (forall x, In x R -> P x) ->
  (forall x c y, cell_of h x = Some c -> P x -> In y (children c) -> P y) -> forall x, alive h x -> P x.
Proof.
  intros HE (rk & HK) H0 HS. set (M := list_max (map rk (seq 0 (List.length h)))).
  assert (HM : forall x, x < List.length h -> rk x <= M).
  { intros x Hx. assert (HF : Forall (fun k => k <= M) (map rk (seq 0 (List.length h)))) by (apply list_max_le; lia).
    rewrite Forall_forall in HF. apply HF. apply in_map. apply in_seq. lia. }
  assert (HN : forall n x, M - rk x < n -> alive h x -> P x).
  { induction n as [|n IH]; intros x Hn Hx; [lia|]. destruct HE as (H1 & H2). pose proof (H2 x Hx) as Hr. rewrite H1 in Hr.
    destruct (in_dec Nat.eq_dec x R) as [Hi|Hi]; [auto|]. destruct (in_dec Nat.eq_dec x (refs h)) as [Hj|Hj].
    - destruct (refs_parent h x Hj) as (z & c & Hz & Hc). eapply HS; [exact Hz| |exact Hc]. apply IH; [|apply alive_cell; eauto].
      pose proof (HK z c x Hz Hc). assert (Hzl : z < List.length h).
      { unfold cell_of in Hz. apply nth_error_Some. destruct (nth_error h z); congruence. }
      pose proof (HM z Hzl). lia.
    - rewrite times_in in *. lia. }
  intros x. apply (HN (S (M - rk x))). lia.
Qed.
Lemma refs_eq : forall h h', (forall x, cell_of h x = cell_of h' x) -> refs h = refs h'.
Proof.
  induction h as [|o h IH]; intros h' H.
  - assert (HZ : forall h', (forall x, cell_of [] x = cell_of h' x) -> refs h' = []).
    { clear. induction h' as [|o h' IH]; intros H; auto. cbn [refs flat_map]. fold (refs h'). rewrite IH.
      - specialize (H 0). cbn in H. destruct o; [discriminate|reflexivity].
      - intros x. specialize (H (S x)). destruct x; exact H. }
    rewrite (HZ h' H). reflexivity.
  - destruct h' as [|o' h'].
    + specialize (IH []). cbn [refs flat_map]. fold (refs h). rewrite IH.
      * specialize (H 0). cbn in H. destruct o; [discriminate|reflexivity].
      * intros x. specialize (H (S x)). destruct x; exact H.
    + cbn [refs flat_map]. fold (refs h) (refs h'). rewrite (IH h') by (intros x; exact (H (S x))). f_equal.
      specialize (H 0). cbn in H. destruct o, o'; try discriminate; [injection H as ->|]; reflexivity.
Qed.
(** What [R] holds in [h] is all there is in [h3]. *)
Lemma memory_back h h3 R : exact h R -> acyclic h -> exact h3 R -> acyclic h3 ->
  (forall y c, y < List.length h -> cell_of h3 y = Some c -> cell_of h y = Some c) -> same_memory h h3.
Proof.
  intros HE HA HE3 HA3 HS.
  assert (Hold : forall x, alive h3 x -> x < List.length h).
  { apply (reach_all _ h3 R HE3 HA3).
    - intros x Hx. eapply exact_lt; [exact HE|auto].
    - intros x c y Hx Hl Hy. eapply exact_lt; [exact HE|]. left. eapply kid_refs; [apply HS; [exact Hl|exact Hx]|exact Hy]. }
  assert (Hnew : forall x, alive h x -> cell_of h3 x = cell_of h x).
  { apply (reach_all _ h R HE HA).
    - intros x Hx. destruct (exact_cell h3 R x HE3 Hx) as (c & Hc). rewrite Hc. symmetry. apply HS; auto. eapply exact_lt; [exact HE|auto].
    - intros x c y Hx Heq Hy. rewrite Hx in Heq. pose proof (kid_refs _ _ _ _ Heq Hy) as Hr. destruct (held_alive h3 R y HE3 (or_introl Hr)) as (o & _ & Hn & _).
      assert (Hc : cell_of h3 y = Some (j_cell o)) by (unfold cell_of; rewrite Hn; reflexivity). rewrite Hc. symmetry. apply HS; auto.
      eapply exact_lt; [exact HE|]. left. eapply kid_refs; eauto. }
  assert (HC : forall x, cell_of h x = cell_of h3 x).
  { intros x. destruct (cell_of h x) as [c|] eqn:E; [symmetry; rewrite <- E; apply Hnew; apply alive_cell; eauto|].
    destruct (cell_of h3 x) as [c|] eqn:E3; [|reflexivity]. rewrite <- E. apply HS; [|exact E3]. apply Hold. apply alive_cell. eauto. }
  pose proof (refs_eq _ _ HC) as HRf. destruct HE as (H1 & _), HE3 as (H3 & _).
  assert (HRc : forall x, rc_of h x = rc_of h3 x) by (intros x; rewrite H1, H3, HRf; reflexivity).
  intros x. specialize (HC x). specialize (HRc x). unfold cell_of, rc_of in *. clear - HC HRc.
  destruct (nth_error h x) as [[[r c]|]|], (nth_error h3 x) as [[[r' c']|]|]; cbn in *; congruence.
Qed.
Lemma call_memory e cx msg fuel tg h R : tidy cx -> exact h R -> acyclic h -> (forall n t, tg n = Some t -> In t R) ->
  fine (fun r => snd r = [] /\ exists h3, jput (snd (fst r)) (Some (fst (jalloc h (CObj [])))) = EOk h3 /\ exact h3 R /\ acyclic h3 /\ same_memory h h3)
    (normalizeH e cx msg fuel tg (fst (jalloc h (CObj []))) (snd (jalloc h (CObj [])))).
Proof.
  intros HTd HE HA HT. destruct (jalloc h (CObj [])) as [ev h1] eqn:E. cbn [fst snd].
  pose proof (jalloc_exact h R (CObj []) _ _ HE E) as HE1. destruct (alloc_fresh _ _ _ _ _ HE E) as (Hev & Hur & HuR).
  assert (HA1 : acyclic h1) by (apply (calm_jalloc h R (CObj []) _ _ None HE (fun y Hy => match Hy with end) E); [exact HA|intros i Hi; discriminate]).
  assert (HU1 : ~ In ev (refs h1)) by (injection E as _ <-; rewrite refs_app; cbn [refs flat_map j_cell children]; rewrite !app_nil_r; exact Hur).
  eapply fine_imp; [apply (normalizeH_inv e cx msg fuel tg ev h1 R HE1 HA1 HU1)|].
  { intros n t Ht. split; [eauto|]. intros ->. apply HuR. eauto. }
  intros [[ok h2] lost] (HI & HL). cbn [fst snd] in *. specialize (HL HTd). subst lost. split; auto.
  destruct (jput_exact h2 R (Some ev) (i_exact _ _ _ _ _ _ HI)) as (h3 & E3 & HE3). exists h3.
  assert (HA3 : acyclic h3) by (apply (proj2 (calm_jput 0 None _ _ _ E3)); [apply (i_acyc _ _ _ _ _ _ HI)|intros i Hi; discriminate]).
  split; auto. split; auto. split; auto. apply (memory_back h h3 R HE HA HE3 HA3).
  intros y c Hy Hc. apply (jputs_cell _ _ _ _ _ _ E3) in Hc. assert (Hc1 : cell_of h1 y = Some c) by (apply (i_surv _ _ _ _ _ _ HI); [injection E as _ <-; rewrite app_length; lia|lia|exact Hc]).
  rewrite <- (jalloc_cell _ _ _ _ _ E Hy). exact Hc1.
Qed.
