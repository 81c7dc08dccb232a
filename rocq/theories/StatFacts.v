(** * StatFacts: the walks of Stat.v. *)
From Coq Require Import Permutation.
From Verif Require Import Base BaseFacts Time Parsers Engine Pdag GraphSpec RuleSpec HeapFacts BuildFacts OptFacts LoadFacts Stat StatSpec.

Lemma is_visited_in vis i : is_visited vis i = true <-> In i vis.
Proof. unfold is_visited. rewrite existsb_exists. split; [intros (x & H & E); apply Nat.eqb_eq in E; subst; auto|intros H; exists i; rewrite Nat.eqb_refl; auto]. Qed.
Lemma is_visited_out vis i : is_visited vis i = false <-> ~ In i vis.
Proof. rewrite <- is_visited_in. destruct (is_visited vis i); split; congruence. Qed.

Section G.
Variable h : list (option node).
Variable rk : nat -> nat.
Hypothesis good : forall i n p, live h i n -> In p (n_parsers n) -> (exists m, live h (p_child p) m) /\ rk (p_child p) < rk i.

Section Trav.
Variable keep : nat -> bool.
(** the nodes that matter *)
Variable W : nat -> Prop.
Hypothesis W_down : forall i n p, W i -> live h i n -> In p (n_parsers n) -> keep (p_child p) = true -> W (p_child p).
(** the walk, with what it shows *)
Fixpoint travs (T : list nat -> nat -> er (list item * list nat)) (nd : nat) (l : list prs) (vis : list nat) : er (list item * list nat) :=
  match l with
  | [] => EOk ([], vis)
  | p :: l' =>
      if keep (p_child p) then
        do* (t1, vis) := T vis (p_child p) in
        do* (t2, vis) := travs T nd l' vis in
        EOk (IEdge nd p :: t1 ++ t2, vis)
      else travs T nd l' vis
  end.
Fixpoint trav (fuel : nat) (vis : list nat) (nd : nat) : er (list item * list nat) :=
  match fuel with
  | O => EUb OutOfFuel
  | S f =>
      do* n := get_node h nd in
      if is_visited vis nd then EOk ([], vis) else
      do* (t, vis) := travs (trav f) nd (n_parsers n) (nd :: vis) in
      EOk (INode nd n :: t, vis)
  end.

Definition kids_in (order vis : list nat) : Prop :=
  forall i n p, In i order -> live h i n -> In p (n_parsers n) -> keep (p_child p) = true -> In (p_child p) vis.
Definition closed (k : nat) (vis : list nat) : Prop :=
  forall i n p, W i -> In i vis -> rk i < k -> live h i n -> In p (n_parsers n) -> keep (p_child p) = true -> In (p_child p) vis.
Lemma closed_le k k' vis : closed k vis -> k' <= k -> closed k' vis.
Proof. intros H Hk i n p Hw Hi Hr. apply H; auto. lia. Qed.
Lemma closed_more k vis order vis' : closed k vis -> kids_in order vis' -> Permutation vis' (order ++ vis) -> closed k vis'.
Proof.
  intros HC HK HP i n p Hw Hi Hr Hl Hp Hk. apply (Permutation_in _ HP) in Hi. apply in_app_or in Hi as [Hi|Hi].
  - eapply HK; eauto.
  - apply (Permutation_in _ (Permutation_sym HP)). apply in_or_app. right. eapply HC; eauto.
Qed.
Definition tpost (nd : nat) (vis : list nat) (items : list item) (order vis' : list nat) : Prop :=
  NoDup order /\ (forall i, In i order -> below h keep nd i /\ ~ In i vis /\ exists m, live h i m) /\
  Permutation items (flat_map (items_of h keep) order) /\ Permutation vis' (order ++ vis) /\ kids_in order vis'.

Lemma NoDup_app' {A} (a b : list A) : NoDup a -> NoDup b -> (forall x, In x a -> ~ In x b) -> NoDup (a ++ b).
Proof. induction a as [|x a IH]; cbn; auto. intros H1 H2 H3. inversion H1; subst. constructor; [rewrite in_app_iff; intros [?|?]; [tauto|exact (H3 x (or_introl eq_refl) H)]|apply IH; auto]. Qed.

Lemma trav_ok : forall f vis nd n, live h nd n -> rk nd < f -> closed (S (rk nd)) vis ->
  exists items order vis', trav f vis nd = EOk (items, vis') /\ tpost nd vis items order vis' /\ In nd vis'.
Proof.
  induction f as [|f IH]; intros vis nd n Hn Hf HC; [lia|].
  cbn [trav]. rewrite (live_get _ _ _ Hn). cbn [ebind].
  destruct (is_visited vis nd) eqn:EV.
  - apply is_visited_in in EV. exists [], [], vis. split; [reflexivity|]. split; [|exact EV].
    split; [constructor|]. split; [intros i []|]. split; [constructor|]. split; [reflexivity|]. intros i m p [].
  - apply is_visited_out in EV.
    assert (HGo : forall l vis1, incl l (n_parsers n) -> In nd vis1 -> closed (rk nd) vis1 ->
      exists items order vis', travs (trav f) nd l vis1 = EOk (items, vis') /\
        NoDup order /\ (forall i, In i order -> below h keep nd i /\ ~ In i vis1 /\ exists m, live h i m) /\
        Permutation items (map (IEdge nd) (filter (fun p => keep (p_child p)) l) ++ flat_map (items_of h keep) order) /\
        Permutation vis' (order ++ vis1) /\ kids_in order vis' /\ (forall p, In p l -> keep (p_child p) = true -> In (p_child p) vis')).
    { induction l as [|p l IHl]; intros vis1 Hl Hnd HC1.
      - exists [], [], vis1. split; [reflexivity|]. split; [constructor|]. split; [intros i []|]. split; [constructor|]. split; [reflexivity|]. split; [intros i m p []|intros p []].
      - cbn [travs filter]. destruct (good nd n p Hn (Hl p (or_introl eq_refl))) as [[m Hm] Hr].
        destruct (keep (p_child p)) eqn:EK.
        + destruct (IH vis1 (p_child p) m Hm) as (it1 & o1 & v1 & E1 & (A1 & A2 & A3 & A4 & A5) & A6); [lia|apply (closed_le (rk nd)); auto; lia|].
          rewrite E1. cbn [ebind].
          destruct (IHl v1) as (it2 & o2 & v2 & E2 & B1 & B2 & B3 & B4 & B5 & B6).
          { intros x Hx. apply Hl. right; auto. }
          { apply (Permutation_in _ (Permutation_sym A4)). apply in_or_app. auto. }
          { exact (closed_more _ _ _ _ HC1 A5 A4). }
          rewrite E2. cbn [ebind]. exists (IEdge nd p :: it1 ++ it2), (o1 ++ o2), v2. split; [reflexivity|].
          split; [|split; [|split; [|split; [|split]]]].
          * apply NoDup_app'; auto. intros x Hx Hx2. destruct (B2 x Hx2) as (_ & C & _). apply C. apply (Permutation_in _ (Permutation_sym A4)). apply in_or_app. auto.
          * intros i Hi. apply in_app_or in Hi as [Hi|Hi].
            -- destruct (A2 i Hi) as ((ps & Hps) & C2 & C3). split; [|auto]. exists (p :: ps). econstructor; eauto. apply Hl. left; auto.
            -- destruct (B2 i Hi) as (C1 & C2 & C3). split; [exact C1|]. split; auto. intros C. apply C2. apply (Permutation_in _ (Permutation_sym A4)). apply in_or_app. auto.
          * cbn [map app]. constructor. rewrite A3, B3, flat_map_app, !app_assoc. apply Permutation_app_tail. apply Permutation_app_comm.
          * rewrite B4, A4. rewrite !app_assoc. apply Permutation_app_tail. apply Permutation_app_comm.
          * intros i k q Hi. apply in_app_or in Hi as [Hi|Hi]; [|apply B5; auto].
            intros. apply (Permutation_in _ (Permutation_sym B4)). apply in_or_app. right. eapply A5; eauto.
          * intros q [<-|Hq] Hk; [|apply B6; auto]. apply (Permutation_in _ (Permutation_sym B4)). apply in_or_app. right. exact A6.
        + destruct (IHl vis1) as (it2 & o2 & v2 & E2 & B1 & B2 & B3 & B4 & B5 & B6); auto.
          { intros x Hx. apply Hl. right; auto. }
          exists it2, o2, v2. split; [exact E2|]. split; [exact B1|]. split; [exact B2|]. split; [exact B3|]. split; [exact B4|]. split; [exact B5|].
          intros q [<-|Hq] Hk; [congruence|apply B6; auto]. }
    destruct (HGo (n_parsers n) (nd :: vis)) as (it & o & v & E & B1 & B2 & B3 & B4 & B5 & B6).
    { intros x Hx; exact Hx. } { left; auto. }
    { intros i k p Hw [<-|Hi] Hr Hk Hp Hkp; [lia|]. right. eapply HC; eauto. }
    rewrite E. cbn [ebind]. exists (INode nd n :: it), (nd :: o), v. split; [reflexivity|]. split; [|].
    + split; [|split; [|split; [|split]]].
      * constructor; auto. intros Hi. destruct (B2 nd Hi) as (_ & C & _). apply C. left; auto.
      * intros i [<-|Hi]; [split; [exists []; constructor|split; [exact EV|eauto]]|]. destruct (B2 i Hi) as (C1 & C2 & C3). split; auto. split; auto. intros C. apply C2. right; auto.
      * cbn [flat_map]. unfold items_of at 1. rewrite Hn. cbn [app]. constructor. exact B3.
      * rewrite B4. cbn [app]. symmetry. apply Permutation_middle.
      * intros i k p [<-|Hi] Hk Hp Hkp; [|eapply B5; eauto]. assert (k = n) by (red in Hk, Hn; congruence). subst. apply B6; auto.
    + apply (Permutation_in _ (Permutation_sym B4)). apply in_or_app. right. left; auto.
Qed.

(** with nothing below [nd] left out *)
Lemma below_closed : forall ps nd i vis k, W nd -> kpath h keep nd ps i -> In nd vis -> closed k vis -> rk nd < k -> In i vis.
Proof.
  induction ps as [|p ps IH]; intros nd i vis k Hw HP Hin HC Hk; inversion HP as [|i0 n0 p0 ps0 j0 Hl Hp Hk2 Hrest]; subst; auto.
  destruct (good _ _ _ Hl Hp) as [_ Hr]. apply (IH (p_child p) i vis k); auto; [eapply W_down; eauto|eapply HC; eauto|lia].
Qed.
Lemma trav_all f vis nd n : W nd -> live h nd n -> rk nd < f -> closed (S (rk nd)) vis ->
  exists items order vis', trav f vis nd = EOk (items, vis') /\ new_below h keep nd vis order /\
    Permutation items (flat_map (items_of h keep) order) /\ Permutation vis' (order ++ vis) /\ (forall k, closed k vis -> closed k vis').
Proof.
  intros Hw Hn Hf HC. destruct (trav_ok f vis nd n Hn Hf HC) as (it & o & v & E & (A1 & A2 & A3 & A4 & A5) & A6).
  exists it, o, v. split; [exact E|]. split; [|split; [exact A3|split; [exact A4|intros k Hk; eapply closed_more; eauto]]].
  split; [exact A1|]. intros i. split; [intros Hi; destruct (A2 i Hi) as (? & ? & ?); auto|].
  intros ((ps & HP) & Hi).
  pose proof (below_closed ps nd i v (S (rk nd)) Hw HP A6 (closed_more _ _ _ _ HC A5 A4) ltac:(lia)) as HH.
  apply (Permutation_in _ A4) in HH. apply in_app_or in HH as [|]; tauto.
Qed.
End Trav.

(** ** clearing the flags *)
Section Sclears.
Variable C : list nat -> nat -> er (list nat).
Fixpoint clears (l : list prs) (vis : list nat) : er (list nat) :=
  match l with
  | [] => EOk vis
  | p :: l' => do* vis := C vis (p_child p) in clears l' vis
  end.
End Sclears.
Lemma clear_eq f vis nd : clearVisited h (S f) vis nd =
  do* n := get_node h nd in clears (clearVisited h f) (n_parsers n) (filter (fun j => negb (Nat.eqb nd j)) vis).
Proof. reflexivity. Qed.
Lemma clear_ok : forall f vis nd n, live h nd n -> rk nd < f ->
  exists vis', clearVisited h f vis nd = EOk vis' /\ forall i, In i vis' <-> In i vis /\ ~ below h everything nd i.
Proof.
  induction f as [|f IH]; intros vis nd n Hn Hf; [lia|]. rewrite clear_eq, (live_get _ _ _ Hn). cbn [ebind].
  assert (HGo : forall l vis1, incl l (n_parsers n) -> exists vis', clears (clearVisited h f) l vis1 = EOk vis' /\
            forall i, In i vis' <-> In i vis1 /\ ~ (exists p, In p l /\ below h everything (p_child p) i)).
  { induction l as [|p l IHl]; intros vis1 Hl.
    - exists vis1. split; [reflexivity|]. intros i. split; [intros H; split; auto; intros (p & [] & _)|tauto].
    - cbn [clears]. destruct (good nd n p Hn (Hl p (or_introl eq_refl))) as [[m Hm] Hr].
      destruct (IH vis1 (p_child p) m Hm ltac:(lia)) as (v1 & E1 & A1). rewrite E1. cbn [ebind].
      destruct (IHl v1) as (v2 & E2 & A2); [intros x Hx; apply Hl; right; auto|]. exists v2. split; [exact E2|]. intros i. rewrite A2, A1.
      split.
      + intros ((B1 & B2) & B3). split; auto. intros (q & [<-|Hq] & B4); eauto.
      + intros (B1 & B2). split; [split; auto; intros B; apply B2; exists p; cbn; auto|intros (q & Hq & B); apply B2; exists q; cbn; auto]. }
  destruct (HGo (n_parsers n) (filter (fun j => negb (Nat.eqb nd j)) vis)) as (v & E & A); [intros x; auto|]. exists v. split; [exact E|].
  intros i. rewrite A, filter_In. split.
  - intros ((B1 & B2) & B3). split; auto. intros (ps & HP). inversion HP as [|i0 n0 p0 ps0 j0 Hl Hp Hk2 Hrest]; subst.
    + rewrite Nat.eqb_refl in B2. discriminate.
    + apply B3. assert (n0 = n) by (red in Hl, Hn; congruence). subst. exists p0. split; auto. exists ps0; auto.
  - intros (B1 & B2). split; [split; auto|].
    + destruct (Nat.eqb_spec nd i); auto. subst. exfalso. apply B2. exists []. constructor.
    + intros (p & Hp & ps & HP). apply B2. exists (p :: ps). econstructor; eauto.
Qed.
Lemma clearAll_ok N : (forall i n, live h i n -> rk i < N) -> N <= heap_fuel h -> forall l vis, (forall i, In i l -> exists n, live h i n) ->
  exists vis', clearAll h vis l = EOk vis' /\ forall i, In i vis' <-> In i vis /\ ~ (exists r, In r l /\ below h everything r i).
Proof.
  intros HN HF. induction l as [|a l IH]; intros vis Hl.
  - exists vis. split; [reflexivity|]. intros i. split; [intros H; split; auto; intros (p & [] & _)|tauto].
  - cbn [clearAll]. destruct (Hl a (or_introl eq_refl)) as [n Hn]. destruct (clear_ok (heap_fuel h) vis a n Hn) as (v1 & E1 & A1); [pose proof (HN _ _ Hn); lia|].
    rewrite E1. cbn [ebind]. destruct (IH v1) as (v2 & E2 & A2); [intros i Hi; apply Hl; right; auto|]. exists v2. split; [exact E2|].
    intros i. rewrite A2, A1. split.
    + intros ((B1 & B2) & B3). split; auto. intros (q & [<-|Hq] & B4); eauto.
    + intros (B1 & B2). split; [split; auto; intros B; apply B2; exists a; cbn; auto|intros (q & Hq & B); apply B2; exists q; cbn; auto].
Qed.

(** ** what is written, from what is shown *)
Variable addr : nat -> text.
Definition edge_data (p : prs) : text := literal_text p.
Definition dot_item (x : item) : text :=
  match x with INode i n => dotNode addr i n | IEdge i p => dotEdge addr i p (edge_data p) end.
Definition sdot_item (x : item) : text :=
  match x with INode i n => sdotNode addr i n | IEdge i p => sdotEdge addr i p (edge_data p) end.
Lemma motif_not_literal m : text_eqb (motif_name m) (L "literal") = true -> (exists t, m = MLiteral t) \/ exists t, m = MNoData t.
Proof. destruct m; intros H; try discriminate H; eauto. Qed.
Hypothesis complete : data_complete h.
Lemma dotData_ok i n p : live h i n -> In p (n_parsers n) -> dotData p = EOk (edge_data p).
Proof.
  intros Hi Hp. unfold dotData, is_lit, edge_data, literal_text. destruct (p_kind p) as [m|a b c|t] eqn:EK; cbn [parserName]; try reflexivity.
  destruct (text_eqb (motif_name m) (L "literal")) eqn:EL.
  - destruct (motif_not_literal m EL) as [[t ->]|[t ->]]; [reflexivity|]. exfalso. exact (complete i n p t Hi Hp EK).
  - destruct m; try reflexivity. discriminate EL.
Qed.
Section Sdots.
Variable D : list nat -> nat -> er (text * list nat).
Variable nd : nat.
Fixpoint dots (l : list prs) (vis : list nat) : er (text * list nat) :=
  match l with
  | [] => EOk ([], vis)
  | p :: l' =>
      do* d := dotData p in
      do* (t1, vis) := D vis (p_child p) in
      do* (t2, vis) := dots l' vis in
      EOk (dotEdge addr nd p d ++ t1 ++ t2, vis)
  end.
End Sdots.
Lemma dot_eq f vis nd : genDotRec h addr (S f) vis nd =
  do* n := get_node h nd in
  if is_visited vis nd then EOk ([], vis) else
  do* (t, vis) := dots (genDotRec h addr f) nd (n_parsers n) (nd :: vis) in EOk (dotNode addr nd n ++ t, vis).
Proof. reflexivity. Qed.
Lemma dot_trav : forall f vis nd, genDotRec h addr f vis nd =
  do* (it, v) := trav everything f vis nd in EOk (flat_map dot_item it, v).
Proof.
  induction f as [|f IH]; intros vis nd; [reflexivity|]. rewrite dot_eq. cbn [trav].
  destruct (get_node h nd) as [n|u] eqn:EN; [|reflexivity]. cbn [ebind]. apply get_node_live in EN.
  destruct (is_visited vis nd); [reflexivity|].
  assert (HGo : forall l vis1, incl l (n_parsers n) -> dots (genDotRec h addr f) nd l vis1 = do* (it, v) := travs everything (trav everything f) nd l vis1 in EOk (flat_map dot_item it, v)).
  { induction l as [|p l IHl]; intros vis1 Hl; [reflexivity|]. cbn [dots travs]. unfold everything at 1.
    rewrite (dotData_ok nd n p EN (Hl p (or_introl eq_refl))). cbn [ebind]. rewrite IH.
    destruct (trav everything f vis1 (p_child p)) as [[it v]|u]; [|reflexivity]. cbn [ebind].
    rewrite IHl by (intros x Hx; apply Hl; right; auto). destruct (travs everything (trav everything f) nd l v) as [[it2 v2]|u]; [|reflexivity]. cbn [ebind flat_map].
    rewrite flat_map_app. reflexivity. }
  rewrite HGo by (intros x; auto). destruct (travs everything (trav everything f) nd (n_parsers n) (nd :: vis)) as [[it2 v2]|u]; reflexivity.
Qed.
Section Ssdots.
Variable D : list nat -> nat -> er (text * list nat).
Variable nd : nat.
Fixpoint sdots (l : list prs) (vis : list nat) : er (text * list nat) :=
  match l with
  | [] => EOk ([], vis)
  | p :: l' =>
      do* m := get_node h (p_child p) in
      if N.eqb (n_called m) 0 then sdots l' vis else
      do* d := dotData p in
      do* (t1, vis) := D vis (p_child p) in
      do* (t2, vis) := sdots l' vis in
      EOk (sdotEdge addr nd p d ++ t1 ++ t2, vis)
  end.
End Ssdots.
Lemma sdot_eq f vis nd : statsDotRec h addr (S f) vis nd =
  do* n := get_node h nd in
  if is_visited vis nd then EOk ([], vis) else
  do* (t, vis) := sdots (statsDotRec h addr f) nd (n_parsers n) (nd :: vis) in EOk (sdotNode addr nd n ++ t, vis).
Proof. reflexivity. Qed.
Lemma sdot_trav : forall f vis nd, statsDotRec h addr f vis nd =
  do* (it, v) := trav (used h) f vis nd in EOk (flat_map sdot_item it, v).
Proof.
  induction f as [|f IH]; intros vis nd; [reflexivity|]. rewrite sdot_eq. cbn [trav].
  destruct (get_node h nd) as [n|u] eqn:EN; [|reflexivity]. cbn [ebind]. apply get_node_live in EN.
  destruct (is_visited vis nd); [reflexivity|].
  assert (HGo : forall l vis1, incl l (n_parsers n) -> sdots (statsDotRec h addr f) nd l vis1 = do* (it, v) := travs (used h) (trav (used h) f) nd l vis1 in EOk (flat_map sdot_item it, v)).
  { induction l as [|p l IHl]; intros vis1 Hl; [reflexivity|]. cbn [sdots travs].
    destruct (good nd n p EN (Hl p (or_introl eq_refl))) as [[m Hm] _]. rewrite (live_get _ _ _ Hm). cbn [ebind].
    unfold used at 1. pose proof Hm as Hm'. red in Hm'. rewrite Hm'. destruct (N.eqb (n_called m) 0); cbn [negb].
    { apply IHl. intros x Hx; apply Hl; right; auto. }
    rewrite (dotData_ok nd n p EN (Hl p (or_introl eq_refl))). cbn [ebind]. rewrite IH.
    destruct (trav (used h) f vis1 (p_child p)) as [[it v]|u]; [|reflexivity]. cbn [ebind].
    rewrite IHl by (intros x Hx; apply Hl; right; auto). destruct (travs (used h) (trav (used h) f) nd l v) as [[it2 v2]|u]; [|reflexivity]. cbn [ebind flat_map].
    rewrite flat_map_app. reflexivity. }
  rewrite HGo by (intros x; auto). destruct (travs (used h) (trav (used h) f) nd (n_parsers n) (nd :: vis)) as [[it2 v2]|u]; reflexivity.
Qed.
End G.
