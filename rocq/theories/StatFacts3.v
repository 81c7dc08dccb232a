(** * StatFacts3: the counters. *)
From Coq Require Import Permutation.
From Verif Require Import Base BaseFacts Time Parsers Engine Pdag GraphSpec RuleSpec HeapFacts BuildFacts OptFacts LoadFacts Stat StatSpec StatFacts StatFacts2.

Definition count_item (s : stats) (x : item) : stats := match x with INode _ n => count_node n s | IEdge _ p => count_type p s end.
Section R.
Variable h : list (option node).
Section Go.
Variable R : stats -> list nat -> nat -> er (nat * stats * list nat).
Fixpoint srecs (l : list prs) (m : nat) (s : stats) (vis : list nat) : er (nat * stats * list nat) :=
  match l with
  | [] => EOk (m, s, vis)
  | p :: l' => do* (k, s, vis) := R (count_type p s) vis (p_child p) in srecs l' (Nat.max m k) s vis
  end.
End Go.
Lemma srec_eq f s vis nd : statsRec h (S f) s vis nd =
  do* n := get_node h nd in
  if is_visited vis nd then EOk (0, s, vis) else
  do* (m, s, vis) := srecs (statsRec h f) (n_parsers n) 0 (count_node n s) (nd :: vis) in EOk (S m, s, vis).
Proof. reflexivity. Qed.
Lemma srec_trav : forall f s vis nd it v, trav h everything f vis nd = EOk (it, v) -> exists k, statsRec h f s vis nd = EOk (k, fold_left count_item it s, v).
Proof.
  induction f as [|f IH]; intros s vis nd it v H; [discriminate H|]. cbn [trav] in H. rewrite srec_eq.
  destruct (get_node h nd) as [n|u] eqn:EN; [|discriminate H]. cbn [ebind] in H |- *.
  destruct (is_visited vis nd); [injection H as <- <-; eauto|].
  assert (HGo : forall l m s vis it v, travs everything (trav h everything f) nd l vis = EOk (it, v) -> exists k, srecs (statsRec h f) l m s vis = EOk (k, fold_left count_item it s, v)).
  { clear -IH. induction l as [|p l IHl]; intros m s vis it v H; cbn [travs srecs] in *; [injection H as <- <-; eauto|]. unfold everything at 1 in H.
    destruct (trav h everything f vis (p_child p)) as [[it1 v1]|u] eqn:E1; [|discriminate H]. cbn [ebind] in H.
    destruct (travs everything (trav h everything f) nd l v1) as [[it2 v2]|u] eqn:E2; [|discriminate H]. cbn [ebind] in H. injection H as <- <-.
    destruct (IH (count_type p s) _ _ _ _ E1) as [k1 F1]. rewrite F1. cbn [ebind]. destruct (IHl (Nat.max m k1) (fold_left count_item it1 (count_type p s)) _ _ _ E2) as [k2 F2]. exists k2. rewrite F2.
    cbn [fold_left count_item]. rewrite fold_left_app. reflexivity. }
  destruct (travs everything (trav h everything f) nd (n_parsers n) (nd :: vis)) as [[it1 v1]|u] eqn:E1; [|discriminate H]. cbn [ebind] in H. injection H as <- <-.
  destruct (HGo _ 0 (count_node n s) _ _ _ E1) as [k F]. rewrite F. cbn [ebind]. exists (S k). reflexivity.
Qed.

(** what the counters hold *)
Definition nodes_in (l : list item) : list node := flat_map (fun x => match x with INode _ n => [n] | _ => [] end) l.
Definition fields_in (l : list item) : list prs := flat_map (fun x => match x with IEdge _ p => [p] | _ => [] end) l.
Definition width (n : node) : nat := List.length (n_parsers n).
Lemma bump_seq : forall len k b f, (forall j, f j = f j) -> b <= k < b + len ->
  bump (map f (seq b len)) (k - b) = map (fun j => if Nat.eqb j k then S (f j) else f j) (seq b len).
Proof.
  induction len as [|len IH]; intros k b f _ H; [lia|]. cbn [seq map]. destruct (Nat.eqb_spec b k) as [<-|E].
  - rewrite Nat.sub_diag. cbn [bump]. f_equal. apply map_ext_in. intros j Hj. apply in_seq in Hj. destruct (Nat.eqb_spec j b); [lia|reflexivity].
  - destruct (k - b) as [|d] eqn:ED; [lia|]. cbn [bump]. f_equal. replace d with (k - S b) by lia. apply IH; [auto|lia].
Qed.
Lemma stats_items : forall l s per, st_per s = map per (seq 0 100) ->
  let r := fold_left count_item l s in
  st_nodes r = st_nodes s + List.length (nodes_in l) /\
  st_term r = st_term s + List.length (filter n_term (nodes_in l)) /\
  st_parsers r = st_parsers s + list_sum (map width (nodes_in l)) /\
  st_max r = Nat.max (st_max s) (list_max (map width (nodes_in l))) /\
  st_per r = map (fun k => per k + List.length (filter (fun n => Nat.eqb (width n) k) (nodes_in l))) (seq 0 100) /\
  st_types r = map (fun x => (fst x, snd x + List.length (filter (of_type (fst x)) (fields_in l)))) (st_types s).
Proof.
  induction l as [|x l IH]; intros s per HP r; unfold r; cbn [fold_left nodes_in fields_in flat_map].
  - cbn [List.length map list_sum list_max filter fold_right]. rewrite HP. split; [lia|]. split; [lia|]. split; [cbn; lia|]. split; [cbn; lia|]. split.
    + apply map_ext. intros; lia.
    + rewrite <- (map_id (st_types s)) at 1. apply map_ext. intros [a b]; cbn. f_equal. lia.
  - destruct x as [i n|i p]; cbn [count_item].
    + assert (HP' : st_per (count_node n s) = map (fun k => per k + (if Nat.eqb (width n) k then 1 else 0)) (seq 0 100)).
      { cbn [count_node st_per]. fold (width n). destruct (Nat.leb_spec 100 (width n)) as [HH|HH].
        - rewrite HP. apply map_ext_in. intros j Hj. apply in_seq in Hj. destruct (Nat.eqb_spec (width n) j); lia.
        - rewrite HP. rewrite <- (Nat.sub_0_r (width n)) at 1. rewrite (bump_seq 100 (width n) 0 per); [|auto|lia]. apply map_ext. intros j. rewrite Nat.eqb_sym. destruct (Nat.eqb (width n) j); lia. }
      destruct (IH (count_node n s) _ HP') as (A1 & A2 & A3 & A4 & A5 & A6). rewrite A1, A2, A3, A4, A5, A6. cbn [count_node st_nodes st_term st_parsers st_max st_types].
      fold (nodes_in l). fold (fields_in l). cbn [List.app]. cbn [List.length map filter list_sum list_max fold_right]. fold (width n). fold (list_sum (map width (nodes_in l))). fold (list_max (map width (nodes_in l))).
      split; [lia|]. split; [destruct (n_term n); cbn [List.length]; lia|]. split; [lia|]. split; [lia|]. split; [|reflexivity].
      apply map_ext. intros j. destruct (Nat.eqb (width n) j); cbn [List.length]; lia.
    + assert (HP' : st_per (count_type p s) = map per (seq 0 100)) by (unfold count_type; destruct (p_kind p); exact HP).
      destruct (IH (count_type p s) _ HP') as (A1 & A2 & A3 & A4 & A5 & A6). rewrite A1, A2, A3, A4, A5, A6.
      fold (nodes_in l). fold (fields_in l). cbn [List.app].
      split; [unfold count_type; destruct (p_kind p); reflexivity|]. split; [unfold count_type; destruct (p_kind p); reflexivity|]. split; [unfold count_type; destruct (p_kind p); reflexivity|]. split; [unfold count_type; destruct (p_kind p); reflexivity|]. split; [reflexivity|].
      cbn [filter]. unfold count_type, of_type. destruct (p_kind p) eqn:EK; cbn [st_types]; try reflexivity; rewrite map_map; apply map_ext; intros [a b]; cbn [fst snd]; f_equal;
        match goal with |- context [text_eqb a ?x] => destruct (text_eqb a x) end; cbn [List.length]; lia.
Qed.
End R.

(** ** the report *)
Section Rep.
Variable h : list (option node).
Lemma perm_filter {A} (f : A -> bool) l l' : Permutation l l' -> Permutation (filter f l) (filter f l').
Proof. induction 1; cbn; auto. - destruct (f x); auto. - destruct (f x), (f y); auto. apply perm_swap. - etransitivity; eauto. Qed.
Lemma max_perm l l' : Permutation l l' -> list_max l = list_max l'.
Proof. unfold list_max. induction 1; cbn [fold_right] in *; lia. Qed.
Lemma sum_perm l l' : Permutation l l' -> list_sum l = list_sum l'.
Proof. unfold list_sum. induction 1; cbn [fold_right] in *; lia. Qed.
Definition live_nodes (order : list nat) : list node := flat_map (fun i => match nth_error h i with Some (Some n) => [n] | _ => [] end) order.
Lemma nodes_in_items keep order : nodes_in (flat_map (items_of h keep) order) = live_nodes order.
Proof.
  induction order as [|i l IH]; [reflexivity|]. cbn [flat_map live_nodes]. unfold nodes_in in *. rewrite flat_map_app, IH. f_equal.
  unfold items_of. destruct (nth_error h i) as [[n|]|]; try reflexivity. cbn [flat_map]. replace (flat_map _ (map _ _)) with (@nil node); [reflexivity|]. induction (filter _ (n_parsers n)); cbn; auto.
Qed.
Lemma fields_in_items order : fields_in (flat_map (items_of h everything) order) = all_fields h order.
Proof.
  induction order as [|i l IH]; [reflexivity|]. cbn [flat_map all_fields]. unfold fields_in in *. rewrite flat_map_app, IH. f_equal.
  unfold items_of. destruct (nth_error h i) as [[n|]|]; try reflexivity. cbn [flat_map app]. induction (n_parsers n) as [|p ps IHp]; cbn; auto. rewrite IHp. reflexivity.
Qed.
Lemma nodes_with_live f order : nodes_with h f order = List.length (filter f (live_nodes order)).
Proof.
  unfold nodes_with. induction order as [|i l IH]; [reflexivity|]. cbn [filter live_nodes flat_map]. fold (live_nodes l). rewrite filter_app, app_length, <- IH.
  destruct (nth_error h i) as [[n|]|]; cbn [filter]; [destruct (f n)|..]; cbn [List.length]; lia.
Qed.
Definition all_live (order : list nat) : Prop := forall i, In i order -> exists n, live h i n.
Lemma length_live order : all_live order -> List.length (live_nodes order) = List.length order.
Proof.
  unfold live_nodes. induction order as [|i l IH]; intros H; [reflexivity|]. cbn [flat_map]. rewrite app_length, IH by (intros j Hj; apply H; right; auto).
  destruct (H i (or_introl eq_refl)) as [n Hn]. red in Hn. rewrite Hn. reflexivity.
Qed.
Lemma width_live order : all_live order -> map width (live_nodes order) = map (fields_of h) order.
Proof.
  unfold live_nodes. induction order as [|i l IH]; intros H; [reflexivity|]. cbn [flat_map]. rewrite map_app, IH by (intros j Hj; apply H; right; auto).
  destruct (H i (or_introl eq_refl)) as [n Hn]. red in Hn. unfold fields_of at 2. cbn [map]. rewrite Hn. reflexivity.
Qed.
Lemma sum_fields order : list_sum (map width (live_nodes order)) = List.length (all_fields h order).
Proof.
  unfold live_nodes, all_fields. induction order as [|i l IH]; [reflexivity|]. cbn [flat_map]. rewrite map_app, list_sum_app, app_length, IH. destruct (nth_error h i) as [[n|]|]; cbn; unfold width; lia.
Qed.
Lemma flat_map_map' {A B C} (f : B -> list C) (g : A -> B) l : flat_map f (map g l) = flat_map (fun x => f (g x)) l.
Proof. induction l; cbn; congruence. Qed.
Lemma combine_map {A B} (g : A -> B) l : combine l (map g l) = map (fun x => (x, g x)) l.
Proof. induction l; cbn; congruence. Qed.
Lemma report_ok items order k : all_live order -> Permutation items (flat_map (items_of h everything) order) ->
  statsText (fold_left count_item items stats0) k = report h order k.
Proof.
  intros HL HP. destruct (stats_items items stats0 (fun _ => 0)) as (A1 & A2 & A3 & A4 & A5 & A6).
  { reflexivity. }
  pose proof (Permutation_flat_map (fun x => match x with INode _ n => [n] | _ => [] end) HP) as HN. fold (nodes_in items) in HN.
  change (flat_map _ (flat_map (items_of h everything) order)) with (nodes_in (flat_map (items_of h everything) order)) in HN. rewrite nodes_in_items in HN.
  pose proof (Permutation_flat_map (fun x => match x with IEdge _ p => [p] | _ => [] end) HP) as HF. fold (fields_in items) in HF.
  change (flat_map _ (flat_map (items_of h everything) order)) with (fields_in (flat_map (items_of h everything) order)) in HF. rewrite fields_in_items in HF.
  unfold statsText, report. rewrite A1, A2, A3, A4, A5, A6. cbn [stats0 st_nodes st_term st_parsers st_max st_types].
  rewrite (Permutation_length HN), (length_live _ HL). rewrite (Permutation_length (perm_filter n_term _ _ HN)), <- nodes_with_live.
  rewrite (sum_perm _ _ (Permutation_map width HN)), sum_fields. rewrite (max_perm _ _ (Permutation_map width HN)), (width_live _ HL).
  change (line ?x) with (full_line x). cbn [Nat.add]. rewrite Nat.max_0_l.
  change (show_nat) with num. change padl with right_aligned. change (chr 9) with TAB. change line with full_line.
  rewrite !map_map, flat_map_map'. cbn [fst snd Nat.add]. rewrite map_length, seq_length, combine_map, flat_map_map'. cbn [fst snd].
  do 5 f_equal. f_equal; [|do 2 f_equal].
  - change type_table with builtin_types. apply flat_map_ext. intros ty. rewrite (Permutation_length (perm_filter (of_type ty) _ _ HF)). reflexivity.
  - apply flat_map_ext. intros j. rewrite (Permutation_length (perm_filter _ _ _ HN)), nodes_with_live. reflexivity.
Qed.
End Rep.
