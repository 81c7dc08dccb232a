(** * OptFacts: the optimizer keeps the graph sound. *)
From Verif Require Import Base Parsers Engine Pdag Samp GraphSpec RuleSpec BaseFacts EngineFacts2 HeapFacts DeleteFacts BuildFacts BuildFacts2 OptSem.
From Coq Require Import ZifyBool ZifyNat ZifyN Permutation Sorted.

(** ** ranks below the size of the heap *)
Definition lowrank (h : list (option node)) (rk : nat -> nat) (i : nat) : nat :=
  List.length (filter (fun j => (match nth_error h j with Some (Some _) => true | _ => false end && Nat.ltb (rk j) (rk i))%bool) (seq 0 (List.length h))).
Lemma filter_length_lt {A} (f g : A -> bool) l x : (forall y, In y l -> f y = true -> g y = true) -> In x l -> f x = false -> g x = true ->
  List.length (filter f l) < List.length (filter g l).
Proof.
  intros H Hx Hf Hg. induction l as [|y l IH]; [destruct Hx|]. cbn [filter].
  assert (Hle : List.length (filter f l) <= List.length (filter g l)).
  { clear IH Hx. assert (H' : forall y, In y l -> f y = true -> g y = true) by (intros; apply H; cbn; auto). clear H.
    induction l as [|z l IH]; cbn; auto. pose proof (H' z (or_introl eq_refl)) as Hz. assert (List.length (filter f l) <= List.length (filter g l)) by (apply IH; intros; apply H'; cbn; auto).
    destruct (f z); [rewrite Hz by auto; cbn; lia|]. destruct (g z); cbn; lia. }
  destruct Hx as [->|Hx].
  - rewrite Hf, Hg. cbn. lia.
  - assert (List.length (filter f l) < List.length (filter g l)) by (apply IH; auto; intros; apply H; cbn; auto).
    pose proof (H y (or_introl eq_refl)) as Hy. destruct (f y); [rewrite Hy by auto; cbn; lia|]. destruct (g y); cbn; lia.
Qed.
Lemma gi_lowrank h R rk : gi h R rk -> gi h R (lowrank h rk) /\ forall i n, live h i n -> lowrank h rk i < List.length h.
Proof.
  intros HG. pose proof HG as (HI & HP & HK). split.
  - split; auto. split; auto. intros i n p t Hi Hp Ht. destruct (gi_target _ _ _ _ _ _ _ HG Hi Hp Ht) as [m Hm]. pose proof (HK _ _ _ _ Hi Hp Ht) as Hlt.
    unfold lowrank. apply (filter_length_lt _ _ _ t).
    + intros y _ Hy. apply andb_prop in Hy as [Hy1 Hy2]. rewrite Hy1. cbn. apply Nat.ltb_lt in Hy2. apply Nat.ltb_lt. lia.
    + apply in_seq. pose proof (live_lt _ _ _ Hm). lia.
    + rewrite Nat.ltb_irrefl. apply andb_false_r.
    + red in Hm. rewrite Hm. cbn. apply Nat.ltb_lt. exact Hlt.
  - intros i n Hi. pose proof (live_lt _ _ _ Hi) as Hl. unfold lowrank.
    replace (List.length h) with (List.length (filter (fun _ : nat => true) (seq 0 (List.length h)))) at 2.
    + apply (filter_length_lt _ _ _ i); auto; [apply in_seq; lia|rewrite Nat.ltb_irrefl; apply andb_false_r].
    + assert (forall l : list nat, filter (fun _ => true) l = l) as -> by (induction l as [|x l IHl]; cbn; congruence). apply seq_length.
Qed.

(** ** replacing the parsers of a node *)
Definition put (h : list (option node)) (nd : nat) (ps : list prs) : list (option node) := upd_node h nd (fun n => set_parsers n ps).

Lemma gi_put h R rk nd n ps : gi h R rk -> live h nd n ->
  (forall j, cnt (flat_map targets ps) j = cnt (flat_map targets (n_parsers n)) j) -> gi (put h nd ps) R rk.
Proof.
  intros ((H1 & H2) & HP & HK) Hn HC. pose proof (HP _ _ Hn) as Hp. set (h' := put h nd ps).
  assert (HE : forall j, cnt (cedges h') j = cnt (cedges h) j).
  { intros j. pose proof (cedges_upd_cnt h nd n (fun n => set_parsers n ps) j Hn) as HH. fold (put h nd ps) in HH. fold h' in HH.
    cbn [cedge set_parsers n_refcnt n_parsers] in HH. replace (Z.ltb 0 (n_refcnt n)) with true in HH by lia. rewrite HC in HH. lia. }
  repeat split.
  - intros i m Hi. rewrite cnt_app, HE, <- cnt_app. apply live_upd in Hi as [[_ Hi]|[<- (n0 & Hn0 & ->)]]; auto. cbn. auto.
  - intros j Hj. apply cnt_pos in Hj. rewrite cnt_app, HE, <- cnt_app in Hj. apply cnt_pos in Hj. destruct (H2 _ Hj) as [m Hm].
    destruct (Nat.eq_dec nd j) as [<-|Hne]; [eexists; apply live_upd_same; eauto|exists m; apply live_upd_other; auto].
  - intros i m Hi. apply live_upd in Hi as [[_ Hi]|[<- (n0 & Hn0 & ->)]]; eauto. cbn. eauto.
  - intros i m p t Hi Hin Ht. apply live_upd in Hi as [[_ Hi]|[<- (n0 & Hn0 & ->)]]; [eauto|]. cbn in Hin.
    assert (Ht' : In t (flat_map targets (n_parsers n))). { apply cnt_pos. rewrite <- HC. apply cnt_pos. apply in_flat_map. eauto. }
    apply in_flat_map in Ht' as (q & Hq & Ht'). exact (HK nd n q t Hn Hq Ht').
Qed.

Lemma put_put h nd a b : put (put h nd a) nd b = put h nd b.
Proof. unfold put, upd_node. revert nd. induction h as [|x h IH]; intros [|nd]; cbn; auto; [destruct x; reflexivity|]. f_equal. apply IH. Qed.
Lemma put_free h nd i a : i <> nd -> put (free_nth h i) nd a = free_nth (put h nd a) i.
Proof. unfold put, upd_node, free_nth. revert nd i. induction h as [|x h IH]; intros [|nd] [|i] H; cbn; auto; try congruence. f_equal. apply IH. congruence. Qed.
Lemma put_length h nd ps : List.length (put h nd ps) = List.length h. Proof. apply upd_nth_length. Qed.
Lemma free_length h i : List.length (free_nth h i) = List.length h. Proof. apply upd_nth_length. Qed.
Lemma live_put_self h nd n ps : live h nd n -> live (put h nd ps) nd (set_parsers n ps).
Proof. intros H. apply (live_upd_same h nd n (fun n => set_parsers n ps)). exact H. Qed.

Lemma lit_targets p : is_lit p = true -> targets p = [p_child p] \/ exists a b c, p_kind p = KRepeat a b c.
Proof. unfold is_lit, targets. destruct (p_kind p); eauto. Qed.
Lemma parserName_repeat a b c : parserName (KRepeat a b c) = L "repeat". Proof. reflexivity. Qed.

(** what optimization may do to the rest of the heap: free nodes or permute/merge parsers, never add *)
Definition frees (h h' : list (option node)) : Prop :=
  List.length h' = List.length h /\ forall i n, live h' i n -> live h i n.
Lemma frees_trans a b c : frees a b -> frees b c -> frees a c.
Proof. intros [A1 A2] [B1 B2]. split; [congruence|auto]. Qed.
Lemma frees_refl a : frees a a. Proof. split; auto. Qed.

Lemma live_count_free h i n : live h i n -> cntlive (free_nth h i) + (if bl (Some n) then 1 else 0) = cntlive h.
Proof. intros H. pose proof (cntlive_upd (fun _ => None) h i (Some n) H). unfold free_nth. cbn [bl] in *. lia. Qed.

Lemma compact_ok (S : Prop) nd R rk dn todo : forall fuel h p,
  gi (put h nd (dn ++ p :: todo)) R rk -> (exists n, live h nd n) -> cntlive h < fuel ->
  epost (fun x => let '(h', p') := x in
     gi (put h' nd (dn ++ p' :: todo)) R rk /\ frees h h' /\ (exists n, live h' nd n) /\ (forall i n, rk nd <= rk i -> live h i n -> live h' i n) /\
     orel S (put h nd (dn ++ p :: todo)) (put h' nd (dn ++ p' :: todo)))
    (optLitPathCompact fuel h p).
Proof.
  induction fuel as [|f IH]; intros h p HG [n0 Hn0] Hf; [lia|]. cbn [optLitPathCompact].
  assert (HSame : epost (fun x : list (option node) * prs => let '(h', p') := x in
     gi (put h' nd (dn ++ p' :: todo)) R rk /\ frees h h' /\ (exists n, live h' nd n) /\ (forall i n, rk nd <= rk i -> live h i n -> live h' i n) /\
     orel S (put h nd (dn ++ p :: todo)) (put h' nd (dn ++ p' :: todo))) (EOk (h, p))).
  { cbn. split; [exact HG|]. split; [apply frees_refl|]. split; [eauto|]. split; [auto|apply orel_refl]. }
  destruct (negb (is_lit p && unnamed p)) eqn:E1; [exact HSame|].
  set (H := put h nd (dn ++ p :: todo)) in *.
  pose proof (live_put_self h nd n0 (dn ++ p :: todo) Hn0) as HnH. fold H in HnH.
  assert (Hinp : In p (n_parsers (set_parsers n0 (dn ++ p :: todo)))) by (cbn; apply in_or_app; cbn; auto).
  destruct (gi_target _ _ _ _ _ _ (p_child p) HG HnH Hinp (or_introl eq_refl)) as [cn Hcn].
  assert (Hlt : rk (p_child p) < rk nd). { destruct HG as (_ & _ & HK). apply (HK _ _ _ _ HnH Hinp). left. reflexivity. }
  assert (Hne : nd <> p_child p) by (intros E; rewrite <- E in Hlt; lia).
  assert (Hcn' : live h (p_child p) cn). { unfold H, put in Hcn. apply live_upd_other in Hcn; auto. }
  rewrite (live_get _ _ _ Hcn'). cbn [ebind].
  destruct (n_term cn || negb (Z.eqb (n_refcnt cn) 1))%bool eqn:E2; [exact HSame|].
  destruct (n_parsers cn) as [|q [|q2 qs]] eqn:EQ; try exact HSame.
  destruct (negb (is_lit q && unnamed q)) eqn:E3; [exact HSame|].
  assert (Hinq : In q (n_parsers cn)) by (rewrite EQ; left; reflexivity).
  destruct (gi_target _ _ _ _ _ _ (p_child q) HG Hcn Hinq (or_introl eq_refl)) as [mn Hmn].
  assert (Hlt2 : rk (p_child q) < rk (p_child p)). { destruct HG as (_ & _ & HK). apply (HK _ _ _ _ Hcn Hinq). left. reflexivity. }
  assert (Hne2 : nd <> p_child q) by (intros E; rewrite E in Hlt; lia).
  assert (Hmn' : live h (p_child q) mn). { unfold H, put in Hmn. apply live_upd_other in Hmn; auto. }
  rewrite (live_get _ _ _ Hmn'). cbn [ebind].
  destruct (negb (Z.eqb (n_refcnt mn) 1)) eqn:E4; [exact HSame|].
  destruct (p_kind p) as [[]| |] eqn:Kp; try (cbn; split; discriminate).
  destruct (p_kind q) as [[]| |] eqn:Kq; try (cbn; split; discriminate).
  match goal with |- epost _ (optLitPathCompact f _ ?pp) => set (p' := pp) end.
  assert (Hr1 : n_refcnt cn = 1%Z) by lia.
  assert (HO : orel S H (put (free_nth h (p_child p)) nd (dn ++ p' :: todo))).
  { rewrite put_free by auto. replace (put h nd (dn ++ p' :: todo)) with (put H nd (dn ++ p' :: todo)) by (unfold H; rewrite put_put; reflexivity).
    pose proof HG as ((H1 & _) & HP & _). specialize (H1 _ _ Hcn). rewrite Hr1, cnt_app in H1.
    pose proof (cedges_upd_cnt H nd _ (fun n => set_parsers n (dn ++ todo)) (p_child p) HnH) as A. cbn [cedge set_parsers n_refcnt n_parsers] in A.
    pose proof (HP _ _ HnH) as Hpn. cbn [set_parsers n_refcnt] in Hpn. replace (Z.ltb 0 (n_refcnt n0)) with true in A by lia.
    rewrite !flat_map_app, !cnt_app in A. cbn [flat_map] in A. rewrite !cnt_app in A.
    assert (T1 : targets p = [p_child p]) by (unfold targets; rewrite Kp; reflexivity). rewrite T1, cnt_cons in A. cbn [count_occ] in A.
    destruct (Nat.eq_dec (p_child p) (p_child p)) as [_|]; [|congruence].
    set (H0 := upd_node H nd (fun n => set_parsers n (dn ++ todo))) in *.
    assert (HnH0 : live H0 nd (set_parsers n0 (dn ++ todo))) by (apply (live_upd_same H nd _ (fun n => set_parsers n (dn ++ todo)) HnH)).
    assert (Z0 : cnt (cedges H0) (p_child p) = 0) by lia.
    assert (Hu : unnamed p = true /\ unnamed q = true). { apply negb_false_iff in E1, E3. apply andb_prop in E1, E3. tauto. }
    assert (Hrf : forall j m r, live H0 j m -> In r (n_parsers m) -> p_child r <> p_child p).
    { intros j m r Hm Hr E. assert (Hin : In (p_child p) (cedges H0)).
      { apply cedges_in. exists j, m, r. split; [exact Hm|]. split; [|split; [exact Hr|rewrite <- E; left; reflexivity]]. apply live_upd in Hm as [[_ Hm]|[<- (x & Hx & ->)]]; [exact (HP _ _ Hm)|exact (HP _ _ Hx)]. }
      apply cnt_pos in Hin. lia. }
    eapply (orel_compact S H nd _ cn dn p q todo); eauto.
    - destruct (n_term cn); [discriminate E2|reflexivity].
    - unfold unnamed in Hu. destruct (p_name p); [destruct Hu; discriminate|reflexivity].
    - unfold unnamed in Hu. destruct (p_name q); [destruct Hu; discriminate|reflexivity].
    - intros j m r Hm Hj Hr. apply (Hrf j m r); auto. unfold H0. apply live_upd_other; auto. }
  assert (HG' : gi (put (free_nth h (p_child p)) nd (dn ++ p' :: todo)) R rk).
  { rewrite put_free by auto.
    assert (EH' : put h nd (dn ++ p' :: todo) = put H nd (dn ++ p' :: todo)) by (unfold H; rewrite put_put; reflexivity).
    rewrite EH'.
    pose proof HG as ((H1 & H2) & HP & HK).
    (* count *)
    assert (HC : forall j, cnt (cedges (free_nth (put H nd (dn ++ p' :: todo)) (p_child p))) j + (if Nat.eq_dec (p_child p) j then 1 else 0) = cnt (cedges H) j).
    { intros j. pose proof (cedges_upd_cnt H nd _ (fun n => set_parsers n (dn ++ p' :: todo)) j HnH) as A. cbn [cedge set_parsers n_refcnt n_parsers] in A.
      pose proof (HP _ _ HnH) as Hpn. cbn [set_parsers n_refcnt] in Hpn. replace (Z.ltb 0 (n_refcnt n0)) with true in A by lia.
      rewrite !flat_map_app, !cnt_app in A. cbn [flat_map] in A. rewrite !cnt_app in A.
      assert (T1 : targets p = [p_child p]) by (unfold targets; rewrite Kp; reflexivity).
      assert (T2 : targets p' = [p_child q]) by reflexivity.
      rewrite T1, T2, !cnt_cons in A. cbn [count_occ] in A.
      assert (Hcn2 : live (put H nd (dn ++ p' :: todo)) (p_child p) cn) by (unfold put; apply live_upd_other; auto).
      pose proof (cnt_upd cedge (fun _ => None) j (put H nd (dn ++ p' :: todo)) (p_child p) (Some cn) Hcn2) as B. unfold cedges, free_nth.
      cbn [cedge] in B. replace (Z.ltb 0 (n_refcnt cn)) with true in B by lia. rewrite EQ in B. cbn [flat_map] in B. rewrite app_nil_r in B.
      assert (T3 : targets q = [p_child q]) by (unfold targets; rewrite Kq; reflexivity). rewrite T3, cnt_cons in B. cbn [count_occ] in B.
      unfold cedges in A. fold (put H nd (dn ++ p' :: todo)) in A. lia. }
    assert (Hc1 : cnt (cedges H ++ R) (p_child p) = 1). { specialize (H1 _ _ Hcn). lia. }
    assert (Hc2 : cnt R (p_child p) = 0).
    { rewrite cnt_app in Hc1. specialize (HC (p_child p)). destruct (Nat.eq_dec (p_child p) (p_child p)); [lia|congruence]. }
    repeat split.
    - intros i m Hi. apply live_free in Hi as [Hnei Hi]. rewrite cnt_app. specialize (HC i). destruct (Nat.eq_dec (p_child p) i); [congruence|].
      assert (exists m0, live H i m0 /\ n_refcnt m0 = n_refcnt m) as (m0 & Hm0 & <-).
      { apply live_upd in Hi as [[_ Hi]|[<- (nn & Hnn & ->)]]; eauto. }
      rewrite (H1 _ _ Hm0), cnt_app. lia.
    - intros j Hj. apply cnt_pos in Hj. rewrite cnt_app in Hj. specialize (HC j).
      assert (Hj2 : In j (cedges H ++ R)) by (apply cnt_pos; rewrite cnt_app; lia). destruct (H2 _ Hj2) as [m Hm].
      destruct (Nat.eq_dec (p_child p) j) as [E|Hnej].
      + exfalso. subst j. rewrite cnt_app in Hc1. lia.
      + assert (exists m', live (put H nd (dn ++ p' :: todo)) j m') as [m' Hm'].
        { destruct (Nat.eq_dec nd j) as [<-|Hne']; [eexists; apply live_put_self; eauto|exists m; unfold put; apply live_upd_other; auto]. }
        exists m'. apply live_free. auto.
    - intros i m Hi. apply live_free in Hi as [Hnei Hi]. apply live_upd in Hi as [[_ Hi]|[<- (nn & Hnn & ->)]]; [eauto|]. cbn. eauto.
    - intros i m r t Hi Hr Ht. apply live_free in Hi as [Hnei Hi]. apply live_upd in Hi as [[_ Hi]|[<- (nn & Hnn & ->)]]; [eauto|]. cbn in Hr.
      apply in_app_or in Hr as [Hr|[<-|Hr]].
      + apply (HK _ _ r t HnH); auto. cbn. apply in_or_app. auto.
      + cbn in Ht. destruct Ht as [<-|[]]. lia.
      + apply (HK _ _ r t HnH); auto. cbn. apply in_or_app. cbn. auto. }
  assert (Hnd' : live (free_nth h (p_child p)) nd n0) by (apply live_free; auto).
  eapply epost_mono; [apply (IH (free_nth h (p_child p)) p'); auto|].
  - eauto.
  - pose proof (live_count_free _ _ _ Hcn') as HL. cbn [bl] in HL. replace (Z.ltb 0 (n_refcnt cn)) with true in HL by lia. lia.
  - intros [h' p''] (A1 & A2 & A3 & A4 & A5). split; auto. split; [|split; [auto|split; [|eapply orel_trans; eauto]]].
    + eapply frees_trans; [|exact A2]. split; [apply free_length|]. intros i n Hi. apply live_free in Hi. tauto.
    + intros i n Hi Hn. apply A4; auto. apply live_free. split; auto. intros <-. lia.
Qed.

(** ** the whole component *)
Section Opt.
Variable qsort : list prs -> list prs.
Hypothesis qsort_perm : forall l, Permutation (qsort l) l.

(** [lo]: every priority lies in a range in which the comparator does not overflow *)
Definition sorts_prio (q : list prs -> list prs) : Prop :=
  forall l lo, (forall p, In p l -> (lo <= p_prio p < lo + 2147483648)%Z) -> StronglySorted Z.le (map p_prio (q l)).
Definition prio_range (lo : Z) (h : list (option node)) : Prop :=
  forall i n p, live h i n -> In p (n_parsers n) -> (lo <= p_prio p < lo + 2147483648)%Z.
Lemma orel_range S lo h h' : orel S h h' -> prio_range lo h -> prio_range lo h'.
Proof.
  intros HO HR i n' p Hn Hp. destruct (o_live _ _ _ HO _ _ Hn) as (n & Hn0 & _ & _ & _ & _ & HP & _).
  apply (in_map card) in Hp. apply (Permutation_in _ HP) in Hp. apply in_map_iff in Hp as (q & E & Hq). injection E as _ _ E. rewrite <- E. eauto.
Qed.
Definition sorted_below (h : list (option node)) (i : nat) : Prop := forall ps j n, path h i ps j -> live h j n -> ordered n.
Lemma orel_below (S : Prop) h h' i n : S -> orel S h h' -> live h' i n -> sorted_below h i -> sorted_below h' i.
Proof.
  intros Hs HO Hi HS ps j m HP Hm. destruct (o_path _ _ _ HO _ _ _ _ Hi HP) as [ps' HP']. destruct (o_live _ _ _ HO _ _ Hm) as (m0 & Hm0 & _ & _ & _ & _ & _ & HF). apply HF; auto. eapply HS; eauto.
Qed.

Lemma perm_targets l l' : Permutation l l' -> forall j, cnt (flat_map targets l) j = cnt (flat_map targets l') j.
Proof. intros H j. apply (Permutation_count_occ Nat.eq_dec). apply Permutation_flat_map. exact H. Qed.

Definition opt_go (f : nat) (nd : nat) : list prs -> list prs -> list (option node) -> er (list (option node)) :=
  fix go (dn todo : list prs) (h : list (option node)) : er (list (option node)) :=
  match todo with
  | [] => EOk h
  | p :: todo' =>
      do* (h, p') := optLitPathCompact (heap_fuel h) h p in
      let h := upd_node h nd (fun n => set_parsers n (dn ++ p' :: todo')) in
      do* h := componentOptimize qsort f h (p_child p') in
      go (dn ++ [p']) todo' h
  end.
Lemma opt_go_cons f nd dn p todo' h : opt_go f nd dn (p :: todo') h =
      do* (h, p') := optLitPathCompact (heap_fuel h) h p in
      let h := upd_node h nd (fun n => set_parsers n (dn ++ p' :: todo')) in
      do* h := componentOptimize qsort f h (p_child p') in
      opt_go f nd (dn ++ [p']) todo' h.
Proof. reflexivity. Qed.
Lemma componentOptimize_unfold f h nd :
  componentOptimize qsort (S f) h nd =
  do* n := get_node h nd in
  let ps := if Nat.ltb 1 (List.length (n_parsers n)) then qsort (n_parsers n) else n_parsers n in
  opt_go f nd [] ps (put h nd ps).
Proof.
  reflexivity.
Qed.

(** nodes of rank at least [r] keep everything but order and merging; above [nd] nothing changes *)
Definition untouched (rk : nat -> nat) (r : nat) (h h' : list (option node)) : Prop :=
  List.length h' = List.length h /\ (forall i n, r < rk i -> live h i n -> live h' i n) /\
  (forall i n', live h' i n' -> exists n, live h i n /\ List.length (n_parsers n') = List.length (n_parsers n)) .
Lemma untouched_trans rk r h1 h2 h3 : untouched rk r h1 h2 -> untouched rk r h2 h3 -> untouched rk r h1 h3.
Proof.
  intros (A1 & A2 & A3) (B1 & B2 & B3). split; [congruence|]. split; auto. intros i n3 H3. destruct (B3 _ _ H3) as (n2 & H2 & E2). destruct (A3 _ _ H2) as (n1 & H1 & E1). exists n1. split; congruence.
Qed.
Lemma untouched_weak rk r r' h h' : r <= r' -> untouched rk r h h' -> untouched rk r' h h'.
Proof. intros Hr (A1 & A2 & A3). split; auto. split; auto. intros i n Hi. apply A2. lia. Qed.

Lemma opt_ok (S : Prop) lo R rk : forall f h nd, gi h R rk -> (exists n, live h nd n) -> rk nd < f -> (S -> sorts_prio qsort /\ prio_range lo h) ->
  epost (fun h' => gi h' R rk /\ untouched rk (rk nd) h h' /\ (exists n, live h' nd n) /\ orel S h h' /\ (S -> sorted_below h' nd)) (componentOptimize qsort f h nd).
Proof.
  induction f as [|f IH]; intros h nd HG [n Hn] Hf HS; [lia|]. rewrite componentOptimize_unfold, (live_get _ _ _ Hn). cbn [ebind]. cbv zeta.
  set (ps := if Nat.ltb 1 (List.length (n_parsers n)) then qsort (n_parsers n) else n_parsers n).
  assert (HPs : Permutation ps (n_parsers n)). { unfold ps. destruct (Nat.ltb _ _); auto. }
  assert (HSs : S -> StronglySorted Z.le (map p_prio ps)).
  { intros Hs. destruct (HS Hs) as [Hq Hr]. unfold ps. destruct (Nat.ltb_spec 1 (List.length (n_parsers n))) as [|Hle].
    - apply (Hq _ lo). intros p Hp. eapply Hr; eauto.
    - destruct (n_parsers n) as [|p [|p2 l]]; cbn in *; [constructor|repeat constructor|lia]. }
  assert (HG1 : gi (put h nd ps) R rk). { eapply gi_put; eauto. apply perm_targets. exact HPs. }
  assert (HO1 : orel S h (put h nd ps)) by (apply (orel_perm S h nd n ps); auto).
  assert (HU1 : untouched rk (rk nd) h (put h nd ps)).
  { split; [apply put_length|]. split.
    - intros i m Hi Hm. unfold put. apply live_upd_other; auto. intros <-. lia.
    - intros i m Hm. apply live_upd in Hm as [[_ Hm]|[<- (n0 & Hn0 & ->)]]; eauto. exists n0. split; auto. assert (n0 = n) by (eapply live_fun; eauto). subst n0. cbn. apply Permutation_length. exact HPs. }
  assert (HGo : forall todo dn h1, gi h1 R rk -> live h1 nd (set_parsers n (dn ++ todo)) -> (S -> prio_range lo h1) ->
     (S -> StronglySorted Z.le (map p_prio (dn ++ todo))) -> (S -> forall p, In p dn -> sorted_below h1 (p_child p)) ->
     epost (fun h' => gi h' R rk /\ untouched rk (rk nd) h1 h' /\ (exists n, live h' nd n) /\ orel S h1 h' /\ (S -> sorted_below h' nd)) (opt_go f nd dn todo h1)).
  { induction todo as [|p todo IHt]; intros dn h1 HG2 Hn2 Hr2 Hs2 Hb2.
    - cbn. split; auto. split; [split; auto; split; eauto|]. split; [eauto|]. split; [apply orel_refl|]. intros Hs ps1 j m HP Hm. rewrite app_nil_r in *.
      inversion HP as [|? m1 q ps2 ? Hm1 Hq HP1]; subst.
      + assert (m = set_parsers n dn) by (eapply live_fun; eauto). subst m. unfold ordered, prios. cbn. auto.
      + assert (m1 = set_parsers n dn) by (eapply live_fun; eauto). subst m1. eapply (Hb2 Hs q Hq); eauto.
    - rewrite opt_go_cons.
      assert (Eput : put h1 nd (dn ++ p :: todo) = h1).
      { unfold put, upd_node. clear - Hn2. red in Hn2. revert nd Hn2. induction h1 as [|x h1 IH]; intros [|nd] H; cbn in *; try discriminate; [|f_equal; auto].
        injection H as ->. reflexivity. }
      eapply epost_bind; [apply (compact_ok S nd R rk dn todo (heap_fuel h1) h1 p)|].
      + rewrite Eput. exact HG2.
      + eauto.
      + unfold heap_fuel. pose proof (cntlive_le h1). lia.
      + intros [h2 p'] (A1 & [A2l A2] & [n3 A3] & A4 & A5). cbv zeta. fold (put h2 nd (dn ++ p' :: todo)). rewrite Eput in A5.
        assert (Hn3 : n3 = set_parsers n (dn ++ p :: todo)) by (eapply live_fun; [apply A2; exact A3|exact Hn2]).
        pose proof (live_put_self h2 nd n3 (dn ++ p' :: todo) A3) as Hn4.
        assert (Hc : exists m, live (put h2 nd (dn ++ p' :: todo)) (p_child p') m).
        { eapply gi_target; [exact A1|exact Hn4| |left; reflexivity]. cbn. apply in_or_app. cbn. auto. }
        assert (Hlt : rk (p_child p') < rk nd).
        { destruct A1 as (_ & _ & HK). apply (HK _ _ p' _ Hn4); [cbn; apply in_or_app; cbn; auto|left; reflexivity]. }
        assert (Hs4 : S -> StronglySorted Z.le (map p_prio (dn ++ p' :: todo))).
        { intros Hs. destruct (o_live _ _ _ A5 _ _ Hn4) as (nx & Hnx & _ & _ & _ & _ & _ & HF). assert (nx = set_parsers n (dn ++ p :: todo)) by (eapply live_fun; eauto). subst nx.
          specialize (HF Hs). unfold ordered, prios in HF. cbn in HF. auto. }
        eapply epost_bind; [apply (IH _ (p_child p') A1 Hc); [lia|]|].
        { intros Hs. split; [apply (HS Hs)|]. eapply orel_range; eauto. }
        intros h3 (B1 & B2 & [mc B3] & B4 & B5).
        assert (Hn5 : live h3 nd (set_parsers n ((dn ++ [p']) ++ todo))).
        { rewrite <- app_assoc. cbn [app]. destruct B2 as (_ & B2 & _). apply B2; [lia|]. rewrite Hn3 in Hn4. exact Hn4. }
        assert (O13 : orel S h1 h3) by (eapply orel_trans; eauto).
        eapply epost_mono; [apply (IHt _ _ B1 Hn5)|].
        * intros Hs. eapply orel_range; eauto.
        * intros Hs. rewrite <- app_assoc. cbn [app]. auto.
        * intros Hs r Hr. apply in_app_or in Hr as [Hr|[<-|[]]]; [|auto].
          destruct (gi_target _ _ _ _ _ r (p_child r) B1 Hn5) as [m Hm]; [cbn; apply in_or_app; left; apply in_or_app; auto|left; reflexivity|].
          eapply (orel_below S); eauto.
        * intros h4 (C1 & C2 & C3 & C4 & C5). split; auto. split; [|split; [auto|split; [eapply orel_trans; eauto|auto]]].
          eapply untouched_trans; [|exact C2]. eapply untouched_trans; [|eapply untouched_weak; [|exact B2]; lia].
          split; [rewrite put_length; auto|]. split.
          { intros i m Hi Hm. unfold put. apply live_upd_other; [intros <-; lia|]. apply A4; auto. lia. }
          { intros i m Hm. apply live_upd in Hm as [[_ Hm]|[<- (n0 & Hn0 & ->)]]; [exists m; auto|]. exists (set_parsers n (dn ++ p :: todo)). split; auto. cbn. rewrite !app_length. reflexivity. } }
  eapply epost_mono; [apply (HGo ps [] (put h nd ps)); auto|].
  - cbn [app]. apply live_put_self. exact Hn.
  - intros Hs. eapply orel_range; [exact HO1|]. apply (HS Hs).
  - intros Hs p [].
  - intros h' (A1 & A2 & A3 & A4 & A5). split; auto. split; [eapply untouched_trans; eauto|]. split; [auto|]. split; [eapply orel_trans; eauto|auto].
Qed.

Lemma readIDs_ok R rk h : gi h R rk -> forall f nd, (exists n, live h nd n) -> rk nd < f -> epost (fun _ => True) (componentReadIDs f h nd).
Proof.
  intros HG. induction f as [|f IH]; intros nd [n Hn] Hf; [lia|]. cbn [componentReadIDs]. rewrite (live_get _ _ _ Hn). cbn [ebind].
  assert (HL : forall p, In p (n_parsers n) -> (exists m, live h (p_child p) m) /\ rk (p_child p) < f).
  { intros p Hp. split; [eapply gi_target; eauto; left; reflexivity|]. destruct HG as (_ & _ & HR). assert (rk (p_child p) < rk nd) by (eapply HR; eauto; left; reflexivity). lia. }
  induction (n_parsers n) as [|p l IHl]; [exact I|]. cbn [fold_right]. destruct (_ && _)%bool; [cbn; split; discriminate|].
  eapply epost_bind; [apply IH; apply HL; left; reflexivity|]. intros _ _. apply IHl. intros q Hq. apply HL. right. exact Hq.
Qed.
Lemma optimize_all_ok (S : Prop) lo R rk : forall l h, gi h R rk -> (forall i, In i l -> In i R) -> (forall i, In i R -> rk i < List.length h) -> (S -> sorts_prio qsort /\ prio_range lo h) ->
  epost (fun h' => gi h' R rk /\ List.length h' = List.length h /\
     (forall i n', live h' i n' -> exists n, live h i n /\ List.length (n_parsers n') = List.length (n_parsers n)) /\
     orel S h h' /\ (S -> forall i, In i l -> sorted_below h' i)) (optimize_all qsort h l).
Proof.
  induction l as [|i l IH]; intros h HG Hl Hrk HS; cbn [optimize_all]; [cbn; split; [auto|]; split; [auto|]; split; [eauto|]; split; [apply orel_refl|intros _ i []]|].
  eapply epost_bind; [apply (opt_ok S lo R rk (heap_fuel h) h i HG)|].
  - eapply gi_live; eauto. apply Hl. left. reflexivity.
  - unfold heap_fuel. specialize (Hrk i (Hl i (or_introl eq_refl))). lia.
  - exact HS.
  - intros h1 (A1 & (B1 & B2 & B3) & [m B4] & B5 & B6).
    eapply epost_bind; [apply (readIDs_ok R rk h1 A1); [eauto|unfold heap_fuel; rewrite B1; specialize (Hrk i (Hl i (or_introl eq_refl))); lia]|]. intros _ _.
    eapply epost_mono; [apply (IH h1 A1); [intros; apply Hl; cbn; auto|rewrite B1; auto|]|].
    + intros Hs. split; [apply (HS Hs)|]. eapply orel_range; [eauto|]. apply (HS Hs).
    + intros h2 (C1 & C2 & C3 & C4 & C5). split; auto. split; [congruence|]. split; [|split; [eapply orel_trans; eauto|]].
      * intros j n2 Hn2. destruct (C3 _ _ Hn2) as (n1 & Hn1 & E1). destruct (B3 _ _ Hn1) as (n0 & Hn0 & E0). exists n0. split; congruence.
      * intros Hs j [<-|Hj]; [|auto]. destruct (gi_live _ _ _ i C1) as [x Hx]; [apply Hl; cbn; auto|]. eapply (orel_below S); eauto.
Qed.

Lemma optimize_ok (S : Prop) lo cx R rk : gi (c_nodes cx) (R ++ owners cx) rk -> (S -> sorts_prio qsort /\ prio_range lo (c_nodes cx)) ->
  epost (fun cx' => cx' = set_nodes cx (c_nodes cx') /\ (exists rk', gi (c_nodes cx') (R ++ owners cx) rk') /\
     (forall K, room (c_nodes cx) K -> room (c_nodes cx') K) /\ orel S (c_nodes cx) (c_nodes cx') /\
     (S -> forall i, In i (owners cx) -> sorted_below (c_nodes cx') i)) (optimize qsort cx).
Proof.
  intros HG HS. unfold optimize. destruct (gi_lowrank _ _ _ HG) as [HG' HB].
  eapply epost_bind; [apply (optimize_all_ok S lo _ _ (map snd (c_types cx) ++ [c_root cx]) _ HG')|].
  - intros i Hi. apply in_or_app. right. unfold owners. apply in_app_or in Hi as [Hi|[<-|[]]]; cbn; auto.
  - intros i Hi. destruct (gi_live _ _ _ _ HG' Hi) as [n Hn]. eauto.
  - exact HS.
  - intros h (A1 & A2 & A3 & A4 & A5). cbn [epost]. split; [reflexivity|]. rewrite nodes_set. split; [eauto|]. split; [|split; auto].
    + intros K [HK1 HK2]. split; auto. intros i n Hi. destruct (A3 _ _ Hi) as (n0 & Hn0 & ->). eauto.
    + intros Hs i Hi. apply A5; auto. apply in_or_app. unfold owners in Hi. destruct Hi as [<-|Hi]; cbn; auto.
Qed.
End Opt.
