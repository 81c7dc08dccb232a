(** * DeleteFacts: ln_pdagDelete on a graph with exact reference counts. *)
From Verif Require Import Base Parsers Engine Pdag GraphSpec BaseFacts EngineFacts2 HeapFacts.
From Coq Require Import ZifyBool ZifyNat ZifyN.

(** Nodes under deletion (reference count 0) do not count as holders. *)
Definition cedge (o : option node) : list nat :=
  match o with Some n => if Z.ltb 0 (n_refcnt n) then flat_map targets (n_parsers n) else [] | None => [] end.
Definition cedges (h : list (option node)) : list nat := flat_map cedge h.

Definition inv (h : list (option node)) (R : list nat) : Prop :=
  (forall i n, live h i n -> n_refcnt n = Z.of_nat (cnt (cedges h ++ R) i)) /\
  (forall j, In j (cedges h ++ R) -> exists n, live h j n).

Definition bl (o : option node) : bool := match o with Some n => Z.ltb 0 (n_refcnt n) | None => false end.
Definition cntlive (h : list (option node)) : nat := List.length (filter bl h).

Lemma cntlive_le h : cntlive h <= List.length h.
Proof. unfold cntlive. induction h as [|x h IH]; cbn [filter List.length]; [lia|]. destruct (bl x); cbn [List.length]; lia. Qed.

Lemma cntlive_upd f : forall h i x, nth_error h i = Some x ->
  cntlive (upd_nth h i f) + (if bl x then 1 else 0) = cntlive h + (if bl (f x) then 1 else 0).
Proof.
  unfold cntlive. induction h as [|y h IH]; intros [|i] x H; cbn [nth_error] in H; try discriminate; cbn [upd_nth filter].
  - injection H as ->. destruct (bl (f x)), (bl x); cbn [List.length]; lia.
  - specialize (IH _ _ H). destruct (bl y); cbn [List.length]; lia.
Qed.

Lemma inv_perm h R R' : (forall j, cnt R j = cnt R' j) -> inv h R -> inv h R'.
Proof.
  intros HP [H1 H2]. split.
  - intros i n Hi. rewrite (H1 _ _ Hi), !cnt_app, HP. reflexivity.
  - intros j Hj. apply H2. apply cnt_pos. apply cnt_pos in Hj. rewrite cnt_app in *. rewrite HP. exact Hj.
Qed.

(** same node except for the reference count *)
Definition same_node (n m : node) : Prop := n = set_refcnt m (n_refcnt n).
Lemma same_node_trans a b c : same_node a b -> same_node b c -> same_node a c.
Proof. unfold same_node, set_refcnt. intros H1 H2. destruct a, b, c; cbn in *. congruence. Qed.
Lemma same_node_refl a : same_node a a. Proof. destruct a; reflexivity. Qed.

Definition del_post (h h' : list (option node)) : Prop :=
  List.length h' = List.length h /\ cntlive h' <= cntlive h /\
  (forall j m, live h j m -> n_refcnt m = 0%Z -> live h' j m) /\
  (forall j m, live h' j m -> exists m0, live h j m0 /\ same_node m m0 /\ (n_refcnt m = 0%Z -> n_refcnt m0 = 0%Z)).

Lemma del_post_refl h : del_post h h.
Proof. unfold del_post. repeat split; auto. intros j m Hm. exists m. auto using same_node_refl. Qed.
Lemma del_post_trans a b c : del_post a b -> del_post b c -> del_post a c.
Proof.
  intros (A1 & A2 & A3 & A4) (B1 & B2 & B3 & B4). unfold del_post. repeat split; try lia; auto.
  intros j m Hm. destruct (B4 _ _ Hm) as (m1 & Hm1 & S1 & Z1). destruct (A4 _ _ Hm1) as (m0 & Hm0 & S0 & Z0).
  exists m0. split; [auto|]. split; [eapply same_node_trans; eauto|auto].
Qed.

Fixpoint del_list (f : nat) (h : list (option node)) (l : list nat) : er (list (option node)) :=
  match l with [] => EOk h | i :: l' => do* h := pdagDelete f h i in del_list f h l' end.
Lemma del_list_app f l1 l2 : forall h, del_list f h (l1 ++ l2) = do* h := del_list f h l1 in del_list f h l2.
Proof. induction l1 as [|i l1 IH]; intros h; cbn; [reflexivity|]. destruct (pdagDelete f h i); cbn; auto. Qed.

Lemma pdagDelete_unfold f h i :
  pdagDelete (S f) h i =
  do* n := get_node h i in
  let r := (n_refcnt n - 1)%Z in
  let h := upd_node h i (fun n => set_refcnt n r) in
  if Z.ltb 0 r then EOk h
  else do* h := del_list f h (flat_map targets (n_parsers n)) in free_node h i.
Proof.
  cbn [pdagDelete]. destruct (get_node h i) as [n|u]; cbn [ebind]; [|reflexivity].
  cbv zeta. destruct (Z.ltb 0 _); [reflexivity|]. f_equal.
  generalize (upd_node h i (fun n0 => set_refcnt n0 (n_refcnt n - 1))). induction (n_parsers n) as [|p ps IH]; intros h0; [reflexivity|].
  cbn [flat_map]. unfold targets at 1. cbn [app]. cbn [del_list].
  destruct (pdagDelete f h0 (p_child p)) as [h1|]; cbn [ebind]; [|reflexivity].
  destruct (p_kind p) as [m|a b perm|ti]; cbn [app del_list ebind]; auto.
  destruct (pdagDelete f h1 a) as [h2|]; cbn [ebind]; [|reflexivity].
  destruct (pdagDelete f h2 b) as [h3|]; cbn [ebind]; [|reflexivity]. apply IH.
Qed.

Lemma cedges_upd_cnt h i n f j : live h i n ->
  cnt (cedges (upd_node h i f)) j + cnt (cedge (Some n)) j = cnt (cedges h) j + cnt (cedge (Some (f n))) j.
Proof. intros H. exact (cnt_upd cedge (option_map f) j h i (Some n) H). Qed.

Lemma inv_free h i n R : inv h R -> live h i n -> n_refcnt n = 0%Z -> inv (free_nth h i) R.
Proof.
  intros [H1 H2] Hi H0.
  assert (HC : forall j, cnt (cedges (free_nth h i)) j = cnt (cedges h) j).
  { intros j. pose proof (cnt_upd cedge (fun _ => None) j h i (Some n) Hi) as HH. unfold cedges, free_nth.
    cbn [cedge] in HH. rewrite H0 in HH. cbn in HH. lia. }
  split.
  - intros j m Hj. apply live_free in Hj as [_ Hj]. rewrite (H1 _ _ Hj), !cnt_app, HC. reflexivity.
  - intros j Hj. apply cnt_pos in Hj. rewrite cnt_app, HC, <- cnt_app in Hj. pose proof Hj as Hj'. apply cnt_pos in Hj'.
    destruct (H2 _ Hj') as [m Hm]. exists m. apply live_free. split; auto. intros <-.
    assert (m = n) by (eapply live_fun; eauto). subst m. rewrite (H1 _ _ Hi) in H0. lia.
Qed.

Lemma pdagDelete_ok : forall f h i R, inv h (i :: R) -> cntlive h < f ->
  exists h', pdagDelete f h i = EOk h' /\ inv h' R /\ del_post h h'.
Proof.
  induction f as [|f IH]; intros h i R HI Hf; [lia|].
  assert (HL : forall l h, inv h (l ++ R) -> cntlive h < f -> exists h', del_list f h l = EOk h' /\ inv h' R /\ del_post h h').
  { clear HI h Hf i. induction l as [|i l IHl]; intros h HI Hf; [exists h; auto using del_post_refl|].
    cbn [del_list]. destruct (IH h i (l ++ R) HI Hf) as (h1 & E1 & HI1 & HP1). rewrite E1. cbn [ebind].
    destruct (IHl h1 HI1) as (h2 & E2 & HI2 & HP2). { destruct HP1 as (_ & ? & _). lia. }
    exists h2. repeat split; auto; try apply HI2; eapply del_post_trans; eauto. }
  rewrite pdagDelete_unfold. destruct HI as [H1 H2]. destruct (H2 i) as [n Hn]. { apply in_or_app. right. left. reflexivity. }
  rewrite (live_get _ _ _ Hn). cbn [ebind]. cbv zeta.
  pose proof (H1 _ _ Hn) as Hc. rewrite cnt_app, cnt_cons in Hc. destruct (Nat.eq_dec i i) as [_|]; [|congruence].
  set (h1 := upd_node h i (fun n0 => set_refcnt n0 (n_refcnt n - 1))).
  assert (Hn1 : live h1 i (set_refcnt n (n_refcnt n - 1))) by (apply (live_upd_same h i n (fun n0 => set_refcnt n0 (n_refcnt n - 1))); auto).
  assert (HC : forall j, cnt (cedges h1) j + cnt (if Z.ltb 0 (n_refcnt n - 1) then [] else flat_map targets (n_parsers n)) j = cnt (cedges h) j).
  { intros j. pose proof (cedges_upd_cnt h i n (fun n0 => set_refcnt n0 (n_refcnt n - 1)) j Hn) as HH. fold h1 in HH.
    cbn [cedge set_refcnt n_refcnt n_parsers] in HH.
    replace (Z.ltb 0 (n_refcnt n)) with true in HH by lia.
    destruct (Z.ltb 0 (n_refcnt n - 1)); cbn [count_occ] in *; lia. }
  assert (HI1 : inv h1 ((if Z.ltb 0 (n_refcnt n - 1) then [] else flat_map targets (n_parsers n)) ++ R)).
  { split.
    - intros j m Hj. pose proof Hj as Hj0. apply live_upd in Hj as [[Hne Hj]|[<- (n' & Hn' & ->)]].
      + rewrite (H1 _ _ Hj). rewrite !cnt_app, cnt_cons. destruct (Nat.eq_dec i j); [congruence|]. specialize (HC j). lia.
      + assert (n' = n) by (eapply live_fun; eauto). subst n'. cbn [set_refcnt n_refcnt]. rewrite !cnt_app. specialize (HC i). lia.
    - intros j Hj. destruct (H2 j) as [m Hm].
      { apply cnt_pos. apply cnt_pos in Hj. rewrite !cnt_app in *. rewrite cnt_cons. specialize (HC j). lia. }
      destruct (Nat.eq_dec i j) as [<-|Hne]; [eauto|]. exists m. apply live_upd_other; auto. }
  pose proof (cntlive_upd (option_map (fun n0 => set_refcnt n0 (n_refcnt n - 1))) h i (Some n) Hn) as HM.
  cbn [option_map bl] in HM. fold (upd_node h i (fun n0 => set_refcnt n0 (n_refcnt n - 1))) in HM. fold h1 in HM.
  cbn [set_refcnt n_refcnt] in HM.
  assert (HLEN : List.length h1 = List.length h) by (apply upd_nth_length).
  destruct (Z.ltb 0 (n_refcnt n - 1)) eqn:Er.
  - exists h1. split; [reflexivity|]. split; [exact HI1|]. unfold del_post. repeat split; auto.
    + replace (Z.ltb 0 (n_refcnt n)) with true in HM by lia; lia.
    + intros j m Hj H0. apply live_upd_other; auto. intros <-. assert (m = n) by (eapply live_fun; eauto). subst m. lia.
    + intros j m Hj. apply live_upd in Hj as [[Hne Hj]|[<- (n' & Hn' & ->)]].
      * exists m. auto using same_node_refl.
      * exists n'. split; auto. split; [destruct n'; reflexivity|]. cbn. lia.
  - assert (n_refcnt n = 1)%Z as Hr1 by lia.
    assert (cntlive h1 < f) as Hf1. { replace (Z.ltb 0 (n_refcnt n)) with true in HM by lia. lia. }
    destruct (HL _ h1 HI1 Hf1) as (h2 & E2 & HI2 & HP2). rewrite E2. cbn [ebind].
    destruct HP2 as (L2 & M2 & K2 & S2).
    pose proof (K2 _ _ Hn1 ltac:(cbn; lia)) as Hn2. unfold free_node. rewrite (live_get _ _ _ Hn2). cbn [ebind].
    eexists. split; [reflexivity|]. split; [eapply inv_free; eauto; cbn; lia|].
    unfold del_post. repeat split.
    + unfold free_nth. rewrite upd_nth_length. lia.
    + pose proof (cntlive_upd (fun _ => None) h2 i _ Hn2) as HF. unfold free_nth. cbn [bl set_refcnt n_refcnt] in HF.
      replace (Z.ltb 0 (n_refcnt n - 1)) with false in HF. lia.
    + intros j m Hj H0. apply live_free. assert (i <> j). { intros <-. assert (m = n) by (eapply live_fun; eauto). subst m. lia. }
      split; auto. apply K2; auto. apply live_upd_other; auto.
    + intros j m Hj. apply live_free in Hj as [Hne Hj]. destruct (S2 _ _ Hj) as (m0 & Hm0 & SS & ZZ).
      apply live_upd_other in Hm0; auto. exists m0. auto.
Qed.

(** ** acyclic heaps *)
Definition ranked (h : list (option node)) (rk : nat -> nat) : Prop :=
  forall i n p t, live h i n -> In p (n_parsers n) -> In t (targets p) -> rk t < rk i.

Lemma del_post_ranked h h' rk : del_post h h' -> ranked h rk -> ranked h' rk.
Proof.
  intros (_ & _ & _ & HS) HR i n p t Hi Hp Ht. destruct (HS _ _ Hi) as (m & Hm & Sm & _).
  apply (HR i m p t); auto. rewrite Sm in Hp. exact Hp.
Qed.

Definition positive (h : list (option node)) : Prop := forall i n, live h i n -> (0 < n_refcnt n)%Z.
Lemma del_post_positive h h' R : del_post h h' -> inv h' R -> positive h -> positive h'.
Proof.
  intros (_ & _ & _ & HS) HI HP i n Hi. destruct (HS _ _ Hi) as (m & Hm & _ & H0). specialize (HP _ _ Hm).
  destruct HI as [H1 _]. specialize (H1 _ _ Hi). lia.
Qed.

Lemma delete_all_ok : forall l h R, inv h (l ++ R) ->
  exists h', delete_all h l = EOk h' /\ inv h' R /\ del_post h h'.
Proof.
  induction l as [|i l IH]; intros h R HI; [exists h; auto using del_post_refl|].
  cbn [delete_all]. destruct (pdagDelete_ok (heap_fuel h) h i (l ++ R) HI) as (h1 & E1 & HI1 & HP1).
  { unfold heap_fuel. pose proof (cntlive_le h). lia. }
  rewrite E1. cbn [ebind]. destruct (IH h1 R HI1) as (h2 & E2 & HI2 & HP2). exists h2. split; auto. split; auto. eapply del_post_trans; eauto.
Qed.

Lemma cedges_in h j : In j (cedges h) <-> exists i n p, live h i n /\ (0 < n_refcnt n)%Z /\ In p (n_parsers n) /\ In j (targets p).
Proof.
  unfold cedges. rewrite in_flat_map. split.
  - intros ([n|] & Hin & Hj); [|destruct Hj]. apply In_nth_error in Hin as [i Hi]. cbn in Hj.
    destruct (Z.ltb 0 (n_refcnt n)) eqn:E; [|destruct Hj]. apply in_flat_map in Hj as (p & Hp & Hj). exists i, n, p. repeat split; auto. lia.
  - intros (i & n & p & Hi & H0 & Hp & Hj). exists (Some n). split; [eapply nth_error_In; exact Hi|]. cbn.
    replace (Z.ltb 0 (n_refcnt n)) with true by lia. apply in_flat_map. eauto.
Qed.

Lemma ranked_no_roots h rk : ranked h rk -> (forall i n, live h i n -> exists j m p, live h j m /\ In p (n_parsers m) /\ In i (targets p)) ->
  forall i n, ~ live h i n.
Proof.
  intros HR HP. set (B := list_max (map rk (seq 0 (List.length h)))).
  assert (HB : forall i n, live h i n -> rk i <= B).
  { intros i n Hi. apply live_lt in Hi. assert (HH : Forall (fun k => k <= B) (map rk (seq 0 (List.length h)))) by (apply list_max_le; unfold B; lia).
    rewrite Forall_forall in HH. apply HH. apply in_map. apply in_seq. lia. }
  assert (forall d i n, B - rk i <= d -> ~ live h i n) as K.
  { induction d as [|d IH]; intros i n Hd Hi; destruct (HP _ _ Hi) as (j & m & p & Hj & Hp & Ht); pose proof (HR _ _ _ _ Hj Hp Ht); pose proof (HB _ _ Hj).
    - lia.
    - apply (IH j m); auto. lia. }
  intros i n. apply (K _ i n (le_n _)).
Qed.

Lemma no_live_freed h : (forall i n, ~ live h i n) -> all_freed h.
Proof. intros H. apply Forall_forall. intros [n|] Hin; auto. apply In_nth_error in Hin as [i Hi]. exfalso. apply (H i n Hi). Qed.

Lemma exitCtx_ok cx rk : inv (c_nodes cx) (owners cx) -> positive (c_nodes cx) -> ranked (c_nodes cx) rk ->
  exists h, exitCtx cx = EOk h /\ all_freed h.
Proof.
  intros HI HP HR. unfold exitCtx. fold (owners cx). rewrite <- (app_nil_r (owners cx)) in HI.
  destruct (delete_all_ok _ _ _ HI) as (h & E & HI' & Hpost). exists h. split; auto.
  pose proof (del_post_positive _ _ _ Hpost HI' HP) as HP'. pose proof (del_post_ranked _ _ _ Hpost HR) as HR'.
  apply no_live_freed. apply (ranked_no_roots h rk HR'). intros i n Hi. destruct HI' as [H1 _]. pose proof (H1 _ _ Hi) as Hc. specialize (HP' _ _ Hi).
  rewrite app_nil_r in Hc. assert (In i (cedges h)) by (apply cnt_pos; lia). apply cedges_in in H as (j & m & p & Hj & _ & Hp & Ht). exists j, m, p. auto.
Qed.

Lemma positive_cedges h : positive h -> cedges h = edges h.
Proof.
  intros H. unfold cedges, edges. rewrite !flat_map_concat_map. f_equal. apply map_ext_in. intros [n|] Hin; auto. apply In_nth_error in Hin as [i Hi]. specialize (H i n Hi). cbn.
  replace (Z.ltb 0 (n_refcnt n)) with true by lia. reflexivity.
Qed.

(** The specification and the invariant agree. *)
Lemma sound_graph_inv cx : sound_graph cx <-> inv (c_nodes cx) (owners cx) /\ positive (c_nodes cx) /\ exists rk, ranked (c_nodes cx) rk.
Proof.
  unfold sound_graph, refcounts_exact, no_dangling, no_garbage, acyclic, occurrences. split.
  - intros (H1 & H2 & H3 & H4).
    assert (HP : positive (c_nodes cx)). { intros i n Hi. rewrite (H1 _ _ Hi). specialize (H3 _ _ Hi). apply cnt_pos in H3. lia. }
    unfold inv. rewrite (positive_cedges _ HP). split; auto.
  - intros ((H1 & H2) & HP & H4). rewrite (positive_cedges _ HP) in H1, H2. repeat split; auto.
    intros i n Hi. specialize (HP _ _ Hi). specialize (H1 _ _ Hi). apply cnt_pos. lia.
Qed.
