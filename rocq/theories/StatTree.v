(** * StatTree: a rulebase in which every node is referred to once is a forest. *)
From Coq Require Import Permutation.
From Verif Require Import Base BaseFacts Parsers Engine Pdag GraphSpec RuleSpec HeapFacts Stat StatSpec StatFacts StatFacts2 StatFacts4.
Notation cnt := (count_occ Nat.eq_dec).
Lemma count_flat {A} (f : A -> list nat) l a b x : In a l -> In b l -> a <> b -> In x (f a) -> In x (f b) -> 2 <= cnt (flat_map f l) x.
Proof.
  intros Ha Hb Hab Hx Hy. induction l as [|c l IH]; [destruct Ha|]. cbn [flat_map]. rewrite count_occ_app.
  assert (HP : forall z, In z l -> In x (f z) -> 1 <= cnt (flat_map f l) x). { intros z Hz Hzx. apply (count_occ_In Nat.eq_dec). apply in_flat_map. eauto. }
  destruct Ha as [<-|Ha], Hb as [<-|Hb]; try congruence.
  - apply (count_occ_In Nat.eq_dec) in Hx. specialize (HP b Hb Hy). lia.
  - apply (count_occ_In Nat.eq_dec) in Hy. specialize (HP a Ha Hx). lia.
  - specialize (IH Ha Hb). lia.
Qed.
Lemma edges_seq h : edges h = flat_map (fun i => node_targets (nth i h None)) (seq 0 (List.length h)).
Proof.
  unfold edges. assert (HX : forall l k, flat_map node_targets l = flat_map (fun i => node_targets (nth (i - k) l None)) (seq k (List.length l))).
  { induction l as [|o l IH]; intros k; [reflexivity|]. cbn [flat_map List.length seq]. rewrite Nat.sub_diag. cbn [nth]. f_equal. rewrite (IH (S k)). rewrite !flat_map_concat_map. f_equal. apply map_ext_in. intros j Hj. apply in_seq in Hj. replace (j - k) with (S (j - S k)) by lia. reflexivity. }
  rewrite (HX h 0). rewrite !flat_map_concat_map. f_equal. apply map_ext. intros j. rewrite Nat.sub_0_r. reflexivity.
Qed.
Lemma nth_live h i n : live h i n -> nth i h None = Some n.
Proof. intros H. apply nth_error_nth. exact H. Qed.
Section F.
Variable cx : ctx.
Hypothesis safe : safe_graph cx.
Hypothesis ones : forall i n, live (c_nodes cx) i n -> n_refcnt n = 1%Z.
Notation h := (c_nodes cx).
Lemma once i : cnt (edges h ++ owners cx) i <= 1.
Proof.
  destruct safe as (lost & HR & HN & _). destruct (le_lt_dec (cnt (edges h ++ owners cx) i) 1) as [|Hlt]; [auto|].
  assert (Hi : In i (edges h ++ lost ++ owners cx)). { assert (HH : In i (edges h ++ owners cx)) by (apply (count_occ_In Nat.eq_dec); lia). apply in_app_or in HH as [?|?]; apply in_or_app; auto. right. apply in_or_app. auto. }
  destruct (HN i Hi) as [n Hn]. pose proof (HR i n Hn) as HE. rewrite (ones i n Hn) in HE. unfold occurrences in HE. rewrite !count_occ_app in *. lia.
Qed.
Lemma child_edge j m p : live h j m -> In p (n_parsers m) -> In (p_child p) (node_targets (nth j h None)).
Proof. intros Hj Hp. rewrite (nth_live _ _ _ Hj). cbn [node_targets]. apply in_flat_map. exists p. split; auto. left. reflexivity. Qed.
Lemma one_parent j m p j' m' p' : live h j m -> In p (n_parsers m) -> live h j' m' -> In p' (n_parsers m') -> p_child p = p_child p' -> j = j' /\ p = p'.
Proof.
  intros Hj Hp Hj' Hp' HE. pose proof (once (p_child p)) as H1. rewrite count_occ_app, edges_seq in H1.
  assert (Hlt : forall a b, live h a b -> In a (seq 0 (List.length h))). { intros a b Ha. apply in_seq. split; [lia|]. apply nth_error_Some. red in Ha. rewrite Ha. discriminate. }
  assert (EJ : j = j'). { destruct (Nat.eq_dec j j') as [|N]; auto. pose proof (count_flat (fun i => node_targets (nth i h None)) (seq 0 (List.length h)) j j' (p_child p) (Hlt _ _ Hj) (Hlt _ _ Hj') N (child_edge _ _ _ Hj Hp)) as H2. rewrite HE in H2 at 1. specialize (H2 (child_edge _ _ _ Hj' Hp')). lia. }
  subst j'. split; auto. assert (m' = m) by (red in Hj, Hj'; congruence). subst m'.
  destruct (in_split j _ (Hlt _ _ Hj)) as (a & b & ES). rewrite ES, flat_map_app, !count_occ_app in H1. cbn [flat_map] in H1. rewrite count_occ_app, (nth_live _ _ _ Hj) in H1. cbn [node_targets] in H1.
  assert (D : p = p' \/ p <> p'). { destruct (le_lt_dec 2 (cnt (flat_map targets (n_parsers m)) (p_child p))); [lia|].
    destruct (in_split p _ Hp) as (l1 & l2 & EP). rewrite EP in Hp'. apply in_app_or in Hp' as [HX|[HX|HX]]; auto; exfalso; rewrite EP, flat_map_app, count_occ_app in l; cbn [flat_map] in l; rewrite count_occ_app in l;
    assert (HY : 1 <= cnt (targets p) (p_child p)) by (apply (count_occ_In Nat.eq_dec); left; reflexivity).
    - assert (HZ : 1 <= cnt (flat_map targets l1) (p_child p)) by (apply (count_occ_In Nat.eq_dec); apply in_flat_map; exists p'; split; auto; left; auto). lia.
    - assert (HZ : 1 <= cnt (flat_map targets l2) (p_child p)) by (apply (count_occ_In Nat.eq_dec); apply in_flat_map; exists p'; split; auto; left; auto). lia. }
  destruct D as [|D]; auto. pose proof (count_flat targets (n_parsers m) p p' (p_child p) Hp Hp' D (or_introl eq_refl)) as H2. specialize (H2 (or_introl (eq_sym HE))). lia.
Qed.
Lemma owner_no_edge j m p : live h j m -> In p (n_parsers m) -> ~ In (p_child p) (owners cx).
Proof.
  intros Hj Hp HO. pose proof (once (p_child p)) as H1. rewrite count_occ_app in H1.
  assert (1 <= cnt (edges h) (p_child p)). { apply (count_occ_In Nat.eq_dec). unfold edges. apply in_flat_map. exists (Some m). split; [eapply nth_error_In; exact Hj|]. cbn [node_targets]. apply in_flat_map. exists p. split; auto. left; auto. }
  apply (count_occ_In Nat.eq_dec) in HO. lia.
Qed.
Lemma path_snoc r ps p i : path h r (ps ++ [p]) i -> exists j m, path h r ps j /\ live h j m /\ In p (n_parsers m) /\ p_child p = i.
Proof.
  revert r. induction ps as [|q ps IH]; intros r HP; cbn [app] in HP; inversion HP as [|i0 n0 p0 ps0 j0 Hl Hp Hrest]; subst.
  - inversion Hrest; subst. exists r, n0. split; [constructor|auto].
  - destruct (IH _ Hrest) as (j & m & A & B). exists j, m. split; auto. econstructor; eauto.
Qed.
Lemma unique_path : forall ps r r' ps' i, In r (owners cx) -> In r' (owners cx) -> path h r ps i -> path h r' ps' i -> r = r' /\ ps = ps'.
Proof.
  induction ps as [|p ps IH] using rev_ind; intros r r' ps' i Hr Hr' H1 H2.
  - inversion H1; subst. destruct ps' as [|x l] using rev_ind; [inversion H2; auto|]. exfalso. destruct (path_snoc _ _ _ _ H2) as (j & m & _ & A & B & C). apply (owner_no_edge _ _ _ A B). rewrite C. exact Hr.
  - destruct (path_snoc _ _ _ _ H1) as (j & m & A0 & A & B & C). destruct ps' as [|x l _] using rev_ind.
    + inversion H2; subst. exfalso. apply (owner_no_edge _ _ _ A B). exact Hr'.
    + destruct (path_snoc _ _ _ _ H2) as (j' & m' & A0' & A' & B' & C'). destruct (one_parent _ _ _ _ _ _ A B A' B' ltac:(congruence)) as [-> ->].
      destruct (IH _ _ _ _ Hr Hr' A0 A0') as [-> ->]. auto.
Qed.
Lemma count_children l i : cnt (map p_child l) i <= cnt (flat_map targets l) i.
Proof. induction l as [|p l IH]; [apply Nat.le_refl|]. cbn [map flat_map]. rewrite count_occ_app. cbn [targets count_occ]. destruct (Nat.eq_dec (p_child p) i); lia. Qed.
Theorem refcount_forest : forest h (comps cx).
Proof.
  split; [|split].
  - intros r Hr. apply comps_owners in Hr. split.
    + intros ps ps' i H1 H2. eapply (unique_path ps r r ps' i); eauto.
    + intros ps i n _ Hi. apply (NoDup_count_occ Nat.eq_dec). intros x. pose proof (count_children (n_parsers n) x) as H1. pose proof (once x) as H2. rewrite count_occ_app in H2.
      assert (H3 : cnt (flat_map targets (n_parsers n)) x <= cnt (edges h) x).
      { apply nth_error_In in Hi. unfold edges. apply in_split in Hi as (a & b & ->). rewrite flat_map_app, count_occ_app. cbn [flat_map node_targets]. rewrite count_occ_app. lia. }
      lia.
  - apply (NoDup_count_occ Nat.eq_dec). intros x. pose proof (once x) as H. rewrite count_occ_app in H.
    unfold comps, owners in *. rewrite count_occ_app. cbn [count_occ] in *. destruct (Nat.eq_dec (c_root cx) x); lia.
  - intros r r' i Hr Hr' (ps & HP) (ps' & HP'). apply comps_owners in Hr, Hr'. apply kpath_path in HP, HP'. eapply unique_path; eauto.
Qed.
End F.
