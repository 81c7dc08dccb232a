(** * HeapFacts: lists as heaps, counting references. *)
From Verif Require Import Base Parsers Engine Pdag GraphSpec BaseFacts EngineFacts2.
From Coq Require Import ZifyBool ZifyNat ZifyN.

Lemma upd_nth_length {A} (f : A -> A) : forall l i, List.length (upd_nth l i f) = List.length l.
Proof. induction l as [|x l IH]; intros [|i]; cbn; auto. Qed.
Lemma upd_nth_same {A} (f : A -> A) : forall l i x, nth_error l i = Some x -> nth_error (upd_nth l i f) i = Some (f x).
Proof. induction l as [|y l IH]; intros [|i] x H; cbn in *; try discriminate; auto. congruence. Qed.
Lemma upd_nth_other {A} (f : A -> A) : forall l i j, i <> j -> nth_error (upd_nth l i f) j = nth_error l j.
Proof. induction l as [|y l IH]; intros [|i] [|j] H; cbn; auto; congruence. Qed.

Lemma live_upd_same h i n f : live h i n -> live (upd_node h i f) i (f n).
Proof. unfold live, upd_node. intros H. rewrite (upd_nth_same _ _ _ _ H). reflexivity. Qed.
Lemma live_upd_other h i j f m : i <> j -> live (upd_node h i f) j m <-> live h j m.
Proof. unfold live, upd_node. intros H. rewrite upd_nth_other; auto. tauto. Qed.
Lemma live_upd h i f j m : live (upd_node h i f) j m <-> (i <> j /\ live h j m) \/ (i = j /\ exists n, live h i n /\ m = f n).
Proof.
  destruct (Nat.eq_dec i j) as [<-|Hne].
  - split.
    + intros H. right. split; auto. unfold live, upd_node in *.
      destruct (nth_error h i) as [[n|]|] eqn:E.
      * rewrite (upd_nth_same _ _ _ _ E) in H. cbn in H. injection H as <-. exists n. auto.
      * rewrite (upd_nth_same _ _ _ _ E) in H. discriminate.
      * apply nth_error_None in E. assert (K : nth_error (upd_nth h i (option_map f)) i = None) by (apply nth_error_None; rewrite upd_nth_length; auto). congruence.
    + intros [[H _]|[_ (n & H & ->)]]; [congruence|]. apply live_upd_same; auto.
  - rewrite live_upd_other by auto. intuition.
Qed.
Lemma live_free h i j m : live (free_nth h i) j m <-> i <> j /\ live h j m.
Proof.
  unfold live, free_nth. destruct (Nat.eq_dec i j) as [<-|Hne].
  - split; [|tauto]. intros H. destruct (nth_error h i) as [x|] eqn:E; [rewrite (upd_nth_same _ _ _ _ E) in H; discriminate|].
    apply nth_error_None in E. assert (K : nth_error (upd_nth h i (fun _ : option node => None)) i = None) by (apply nth_error_None; rewrite upd_nth_length; auto). congruence.
  - rewrite upd_nth_other; auto. tauto.
Qed.
Lemma live_app h j m x : live (h ++ [x]) j m <-> live h j m \/ (j = List.length h /\ x = Some m).
Proof.
  unfold live. destruct (lt_eq_lt_dec j (List.length h)) as [[H|H]|H].
  - rewrite nth_error_app1 by auto. split; [auto|]. intros [|[-> _]]; auto; lia.
  - subst j. rewrite nth_error_app2, Nat.sub_diag by auto. cbn. split; [intros [= ->]; auto|].
    intros [K|[_ ->]]; auto. exfalso. assert (K2 : nth_error h (List.length h) <> None) by congruence. apply nth_error_Some in K2. lia.
  - split; [|intros [K|[-> _]]; [|lia]].
    + intros K. assert (K2 : nth_error (h ++ [x]) j <> None) by congruence. apply nth_error_Some in K2. rewrite app_length in K2. cbn in K2. lia.
    + assert (K2 : nth_error h j <> None) by congruence. apply nth_error_Some in K2. lia.
Qed.
Lemma live_lt h i n : live h i n -> i < List.length h.
Proof. unfold live. intros H. apply nth_error_Some. congruence. Qed.
Lemma live_fun h i n m : live h i n -> live h i m -> n = m.
Proof. unfold live. congruence. Qed.
Lemma get_node_live h i n : get_node h i = EOk n <-> live h i n.
Proof. unfold get_node, live. destruct (nth_error h i) as [[m|]|]; split; intros; congruence. Qed.
Lemma live_get h i n : live h i n -> get_node h i = EOk n. Proof. apply get_node_live. Qed.

(** ** counting *)
Notation cnt := (count_occ Nat.eq_dec).
Lemma cnt_app l m j : cnt (l ++ m) j = cnt l j + cnt m j. Proof. apply count_occ_app. Qed.
Lemma cnt_cons x l j : cnt (x :: l) j = (if Nat.eq_dec x j then 1 else 0) + cnt l j.
Proof. cbn. destruct (Nat.eq_dec x j); lia. Qed.
Lemma cnt_pos l j : In j l <-> 0 < cnt l j. Proof. apply count_occ_In. Qed.

Lemma cnt_upd (g : option node -> list nat) f j : forall h i x, nth_error h i = Some x ->
  cnt (flat_map g (upd_nth h i f)) j + cnt (g x) j = cnt (flat_map g h) j + cnt (g (f x)) j.
Proof.
  induction h as [|y h IH]; intros [|i] x H; cbn [nth_error] in H; try discriminate; cbn [upd_nth flat_map]; rewrite !cnt_app.
  - injection H as ->. lia.
  - specialize (IH _ _ H). lia.
Qed.
Lemma cnt_split (g : option node -> list nat) j : forall h i x, nth_error h i = Some x -> cnt (g x) j <= cnt (flat_map g h) j.
Proof.
  induction h as [|y h IH]; intros [|i] x H; cbn [nth_error] in H; try discriminate; cbn [flat_map]; rewrite cnt_app.
  - injection H as ->. lia.
  - specialize (IH _ _ H). lia.
Qed.
Lemma edges_in h j : In j (edges h) <-> exists i n p, live h i n /\ In p (n_parsers n) /\ In j (targets p).
Proof.
  unfold edges. rewrite in_flat_map. split.
  - intros ([n|] & Hin & Hj); [|destruct Hj]. apply In_nth_error in Hin as [i Hi]. cbn in Hj. apply in_flat_map in Hj as (p & Hp & Hj). exists i, n, p. auto.
  - intros (i & n & p & Hi & Hp & Hj). exists (Some n). split; [eapply nth_error_In; exact Hi|]. cbn. apply in_flat_map. eauto.
Qed.
