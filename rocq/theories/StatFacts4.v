(** * StatFacts4: longest paths, identifiers, usage. *)
From Coq Require Import Permutation.
From Verif Require Import Base BaseFacts Time Parsers Engine Pdag GraphSpec RuleSpec HeapFacts BuildFacts OptFacts LoadFacts Stat StatSpec StatFacts StatFacts2 StatFacts3.

Section G.
Variable h : list (option node).
Variable rk : nat -> nat.
Hypothesis good : forall i n p, live h i n -> In p (n_parsers n) -> (exists m, live h (p_child p) m) /\ rk (p_child p) < rk i.

Lemma kpath_path r ps i : kpath h everything r ps i <-> path h r ps i.
Proof. split; induction 1; econstructor; eauto. Qed.
Lemma path_app r ps i qs j : path h r ps i -> path h i qs j -> path h r (ps ++ qs) j.
Proof. induction 1; cbn; auto. intros. econstructor; eauto. Qed.
Lemma path_rank r ps i : path h r ps i -> rk i <= rk r.
Proof. induction 1; auto. destruct (good _ _ _ H H0). lia. Qed.
Lemma tree_child r n p : tree h r -> live h r n -> In p (n_parsers n) -> tree h (p_child p).
Proof.
  intros [T1 T2] Hn Hp. split.
  - intros ps ps' i H1 H2. assert (E : p :: ps = p :: ps') by (apply (T1 _ _ i); econstructor; eauto). congruence.
  - intros ps i m H1. eapply T2. econstructor; eauto.
Qed.
(** two children of a node of a tree have nothing in common *)
Lemma tree_apart r n p q ps ps' i : tree h r -> live h r n -> In p (n_parsers n) -> In q (n_parsers n) -> path h (p_child p) ps i -> path h (p_child q) ps' i -> p = q.
Proof. intros [T1 _] Hn Hp Hq H1 H2. assert (E : p :: ps = q :: ps') by (apply (T1 _ _ i); econstructor; eauto). congruence. Qed.
Lemma tree_split r n l1 p l2 q ps ps' i : tree h r -> live h r n -> n_parsers n = l1 ++ p :: l2 -> In q l2 -> path h (p_child p) ps i -> path h (p_child q) ps' i -> False.
Proof.
  intros HT Hn HE Hq H1 H2. assert (p = q). { eapply tree_apart; eauto; rewrite HE; apply in_or_app; right; [left|right]; auto. } subst q.
  destruct HT as [_ T2]. specialize (T2 [] r n (path_nil _ _) Hn). rewrite HE, map_app in T2. apply NoDup_remove_2 in T2 || (cbn [map] in T2; apply NoDup_remove_2 in T2).
  apply T2. apply in_or_app. right. apply in_map. exact Hq.
Qed.

(** ** the length that is reported is that of a path *)
Lemma slen_path : forall f s vis nd k s' v, statsRec h f s vis nd = EOk (k, s', v) ->
  k = 0 /\ In nd vis \/ ~ In nd vis /\ exists ps i, path h nd ps i /\ k = S (List.length ps).
Proof.
  induction f as [|f IH]; intros s vis nd k s' v H; [discriminate H|]. rewrite srec_eq in H.
  destruct (get_node h nd) as [n|u] eqn:EN; [|discriminate H]. cbn [ebind] in H. apply get_node_live in EN.
  destruct (is_visited vis nd) eqn:EV; [injection H as <- <- <-; left; split; auto; apply is_visited_in; auto|].
  right. split; [apply is_visited_out; auto|].
  assert (HGo : forall l m s vis k s' v, incl l (n_parsers n) -> (exists ps i, path h nd ps i /\ m = List.length ps) -> srecs (statsRec h f) l m s vis = EOk (k, s', v) -> exists ps i, path h nd ps i /\ k = List.length ps).
  { clear -IH EN. induction l as [|p l IHl]; intros m s vis k s' v Hl Hm H; cbn [srecs] in H; [injection H as <- <- <-; exact Hm|].
    destruct (statsRec h f (count_type p s) vis (p_child p)) as [[[k1 s1] v1]|u] eqn:E1; [|discriminate H]. cbn [ebind] in H.
    eapply IHl; [intros x Hx; apply Hl; right; exact Hx| |exact H].
    destruct (IH _ _ _ _ _ _ E1) as [[-> _]|(_ & ps & i & HP & ->)]; [rewrite Nat.max_0_r; exact Hm|].
    destruct (Nat.max_spec m (S (List.length ps))) as [[_ ->]|[_ ->]]; [|exact Hm]. exists (p :: ps), i. split; [|reflexivity]. econstructor; eauto. apply Hl. left; auto. }
  destruct (srecs (statsRec h f) (n_parsers n) 0 (count_node n s) (nd :: vis)) as [[[k1 s1] v1]|u] eqn:E1; [|discriminate H]. cbn [ebind] in H. injection H as <- <- <-.
  destruct (HGo _ _ _ _ _ _ _ (fun x Hx => Hx) (ex_intro _ [] (ex_intro _ nd (conj (path_nil _ _) eq_refl))) E1) as (ps & i & HP & ->). eauto.
Qed.
(** and for trees the longest *)
Lemma slen_tree : forall f s vis nd k s' v, tree h nd -> (forall ps i, path h nd ps i -> ~ In i vis) ->
  statsRec h f s vis nd = EOk (k, s', v) ->
  (forall ps i, path h nd ps i -> S (List.length ps) <= k) /\ (forall i, In i v -> In i vis \/ exists ps, path h nd ps i).
Proof.
  induction f as [|f IH]; intros s vis nd k s' v HT HV H; [discriminate H|]. rewrite srec_eq in H.
  destruct (get_node h nd) as [n|u] eqn:EN; [|discriminate H]. cbn [ebind] in H. apply get_node_live in EN.
  destruct (is_visited vis nd) eqn:EV; [exfalso; apply is_visited_in in EV; exact (HV [] nd (path_nil _ _) EV)|].
  assert (HGo : forall l done m s vis1 k s' v, n_parsers n = done ++ l ->
     (forall p ps i, In p l -> path h (p_child p) ps i -> ~ In i vis1) ->
     srecs (statsRec h f) l m s vis1 = EOk (k, s', v) ->
     m <= k /\ (forall p ps i, In p l -> path h (p_child p) ps i -> S (List.length ps) <= k) /\ (forall i, In i v -> In i vis1 \/ exists ps, path h nd ps i)).
  { clear -IH EN HT good. induction l as [|p l IHl]; intros dn m s vis1 k s' v HE HV H; cbn [srecs] in H.
    - injection H as <- <- <-. split; [lia|]. split; [intros p ps i []|auto].
    - destruct (statsRec h f (count_type p s) vis1 (p_child p)) as [[[k1 s1] v1]|u] eqn:E1; [|discriminate H]. cbn [ebind] in H.
      assert (Hp : In p (n_parsers n)) by (rewrite HE; apply in_or_app; right; left; auto).
      destruct (IH _ _ _ _ _ _ (tree_child _ _ _ HT EN Hp) (fun ps i => HV p ps i (or_introl eq_refl)) E1) as [B1 B2].
      assert (HE2 : n_parsers n = (dn ++ [p]) ++ l) by (rewrite <- app_assoc; exact HE).
      destruct (IHl (dn ++ [p]) (Nat.max m k1) s1 v1 k s' v HE2) as (C1 & C2 & C3).
      { intros q ps i Hq HP Hi. destruct (B2 i Hi) as [Hi'|(ps' & HP')]; [exact (HV q ps i (or_intror Hq) HP Hi')|]. eapply (tree_split nd n dn p l q); eauto. }
      { exact H. }
      split; [lia|]. split.
      + intros q ps i [<-|Hq] HP; [specialize (B1 ps i HP); lia|eauto].
      + intros i Hi. destruct (C3 i Hi) as [Hi'|?]; auto. destruct (B2 i Hi') as [?|(ps & HP)]; auto. right. exists (p :: ps). econstructor; eauto. }
  destruct (srecs (statsRec h f) (n_parsers n) 0 (count_node n s) (nd :: vis)) as [[[k1 s1] v1]|u] eqn:E1; [|discriminate H]. cbn [ebind] in H. injection H as <- <- <-.
  destruct (HGo (n_parsers n) [] 0 (count_node n s) (nd :: vis) k1 s1 v1 eq_refl) as (B1 & B2 & B3).
  { intros p ps i Hp HP [<-|Hi]; [|apply (HV (p :: ps) i); [econstructor; eauto|exact Hi]]. pose proof (path_rank _ _ _ HP). destruct (good _ _ _ EN Hp). lia. }
  { exact E1. }
  split.
  - intros ps i HP. inversion HP as [|i0 n0 p0 ps0 j0 Hl Hp Hrest]; subst; cbn [List.length]; [lia|]. assert (n0 = n) by (red in Hl, EN; congruence). subst. specialize (B2 _ _ _ Hp Hrest). lia.
  - intros i Hi. destruct (B3 i Hi) as [[<-|?]|?]; auto. right. exists []. constructor.
Qed.

(** ** identifiers *)
Lemma id_put ids i t j : id_of (put_id ids i t) j = if Nat.eqb i j then Some t else id_of ids j.
Proof.
  unfold id_of, put_id. cbn [find fst]. destruct (Nat.eqb_spec i j) as [|E]; [reflexivity|].
  unfold del_id. induction ids as [|[a b] l IH]; [reflexivity|]. cbn [filter fst]. destruct (Nat.eqb_spec a i) as [->|E2]; cbn [negb find fst].
  - destruct (Nat.eqb_spec i j); [congruence|]. exact IH.
  - destruct (Nat.eqb a j); [reflexivity|exact IH].
Qed.
Section Go.
Variable R : list (nat * text) -> nat -> text -> er (list (nat * text)).
Variable prefix : text.
Fixpoint idgo (l : list prs) (ids : list (nat * text)) : er (list (nat * text)) :=
  match l with
  | [] => EOk ids
  | p :: l' => do* d := field_id p in do* ids := R ids (p_child p) (prefix ++ d) in idgo l' ids
  end.
End Go.
Lemma setIDs_eq f ids nd prefix : setIDs h (S f) ids nd prefix =
  do* n := get_node h nd in
  do* (prefix, ids) :=
    match id_of ids nd with
    | None => EOk (prefix, put_id ids nd prefix)
    | Some cur => let u := fixed_id cur prefix in do* ids := deleteIDs h (heap_fuel h) ids nd in EOk (u, put_id ids nd u)
    end in
  idgo (setIDs h f) prefix (n_parsers n) ids.
Proof. reflexivity. Qed.
Hypothesis complete : data_complete h.
Lemma field_id_ok i n p : live h i n -> In p (n_parsers n) -> field_id p = EOk (shown_field p).
Proof.
  intros Hi Hp. unfold field_id, is_lit, shown_field. destruct (p_kind p) as [m|a b c|t] eqn:EK; cbn [parserName]; try reflexivity.
  destruct (text_eqb (motif_name m) (L "literal")) eqn:EL.
  - destruct (motif_not_literal m EL) as [[t ->]|[t ->]]; [destruct (p_name p); reflexivity|]. exfalso. exact (complete i n p t Hi Hp EK).
  - destruct m; try reflexivity. discriminate EL.
Qed.
Lemma setIDs_ok : forall f ids nd prefix n, live h nd n -> rk nd < f -> tree h nd -> (forall ps i, path h nd ps i -> id_of ids i = None) ->
  exists ids', setIDs h f ids nd prefix = EOk ids' /\
    (forall ps i, path h nd ps i -> id_of ids' i = Some (prefix ++ shown_path ps)) /\
    (forall i, (forall ps, ~ path h nd ps i) -> id_of ids' i = id_of ids i).
Proof.
  induction f as [|f IH]; intros ids nd prefix n Hn Hf HT HI; [lia|]. rewrite setIDs_eq, (live_get _ _ _ Hn). cbn [ebind]. rewrite (HI [] nd (path_nil _ _)). cbn [ebind].
  assert (HGo : forall l done ids1, n_parsers n = done ++ l ->
     (forall p ps i, In p l -> path h (p_child p) ps i -> id_of ids1 i = None) ->
     exists ids', idgo (setIDs h f) prefix l ids1 = EOk ids' /\
       (forall p ps i, In p l -> path h (p_child p) ps i -> id_of ids' i = Some (prefix ++ shown_path (p :: ps))) /\
       (forall i, (forall p ps, In p l -> ~ path h (p_child p) ps i) -> id_of ids' i = id_of ids1 i)).
  { induction l as [|p l IHl]; intros dn ids1 HE HI1.
    - exists ids1. split; [reflexivity|]. split; [intros p ps i []|auto].
    - cbn [idgo]. assert (Hp : In p (n_parsers n)) by (rewrite HE; apply in_or_app; right; left; auto). rewrite (field_id_ok nd n p Hn Hp). cbn [ebind].
      destruct (good nd n p Hn Hp) as [[m Hm] Hr].
      destruct (IH ids1 (p_child p) (prefix ++ shown_field p) m Hm ltac:(lia) (tree_child _ _ _ HT Hn Hp) (fun ps i => HI1 p ps i (or_introl eq_refl))) as (ids2 & E2 & A1 & A2).
      rewrite E2. cbn [ebind].
      assert (HX : forall q ps i, In q l -> path h (p_child q) ps i -> forall ps', ~ path h (p_child p) ps' i).
      { intros q ps i Hq HP ps' HP'. eapply (tree_split nd n dn p l q); eauto. }
      destruct (IHl (dn ++ [p]) ids2) as (ids3 & E3 & B1 & B2).
      { rewrite <- app_assoc. exact HE. }
      { intros q ps i Hq HP. rewrite (A2 i (HX q ps i Hq HP)). eapply HI1; [right; exact Hq|exact HP]. }
      exists ids3. split; [exact E3|]. split.
      + intros q ps i [<-|Hq] HP; [|eauto]. rewrite B2; [|intros q ps' Hq HP'; exact (HX q ps' i Hq HP' ps HP)]. rewrite (A1 ps i HP). cbn [shown_path flat_map]. rewrite <- app_assoc. reflexivity.
      + intros i Hi. rewrite B2, A2; auto; [intros ps; apply Hi; left; auto|intros q ps Hq; apply Hi; right; auto]. }
  destruct (HGo (n_parsers n) [] (put_id ids nd prefix) eq_refl) as (ids' & E & A1 & A2).
  { intros p ps i Hp HP. rewrite id_put. destruct (Nat.eqb_spec nd i) as [<-|]; [|apply (HI (p :: ps)); econstructor; eauto]. pose proof (path_rank _ _ _ HP). destruct (good _ _ _ Hn Hp). lia. }
  exists ids'. split; [exact E|]. split.
  - intros ps i HP. inversion HP as [|i0 n0 p0 ps0 j0 Hl Hp Hrest]; subst.
    + rewrite A2; [rewrite id_put, Nat.eqb_refl; cbn; rewrite app_nil_r; reflexivity|]. intros p ps Hp HP'. pose proof (path_rank _ _ _ HP'). destruct (good _ _ _ Hn Hp). lia.
    + assert (n0 = n) by (red in Hl, Hn; congruence). subst. eauto.
  - intros i Hi. rewrite A2; [rewrite id_put; destruct (Nat.eqb_spec nd i) as [<-|]; [exfalso; exact (Hi [] (path_nil _ _))|reflexivity]|]. intros p ps Hp HP. apply (Hi (p :: ps)). econstructor; eauto.
Qed.

(** ** usage *)
Section UGo.
Variable R : nat -> er text.
Fixpoint ugo (l : list prs) : er text :=
  match l with
  | [] => EOk []
  | p :: l' =>
      do* m := get_node h (p_child p) in
      do* t1 := (if N.eqb (n_called m) 0 then EOk [] else R (p_child p)) in
      do* t2 := ugo l' in
      EOk (t1 ++ t2)
  end.
End UGo.
Lemma usage_eq f ids nd : usage h (S f) ids nd =
  do* n := get_node h nd in
  do* t := ugo (usage h f ids) (n_parsers n) in
  EOk ((if N.eqb (n_called n) 0 then [] else usage_line ids nd n) ++ t).
Proof. reflexivity. Qed.
Definition uline (ids : list (nat * text)) (i : nat) : text := match nth_error h i with Some (Some n) => usage_line ids i n | _ => [] end.
Lemma used_live i n : live h i n -> used h i = negb (N.eqb (n_called n) 0).
Proof. intros H. unfold used. red in H. rewrite H. reflexivity. Qed.
Lemma usage_ok ids : forall f nd n, live h nd n -> rk nd < f ->
  exists l : list (list prs * nat), usage h f ids nd = EOk (flat_map (fun x => uline ids (snd x)) l) /\
    (forall ps i, In (ps, i) l <-> kpath h (used h) nd ps i /\ used h i = true) /\ (tree h nd -> NoDup l).
Proof.
  induction f as [|f IH]; intros nd n Hn Hf; [lia|]. rewrite usage_eq, (live_get _ _ _ Hn). cbn [ebind].
  assert (HGo : forall l, incl l (n_parsers n) -> exists out, ugo (usage h f ids) l = EOk (flat_map (fun x => uline ids (snd x)) out) /\
     (forall ps i, In (ps, i) out <-> exists p qs, ps = p :: qs /\ In p l /\ used h (p_child p) = true /\ kpath h (used h) (p_child p) qs i /\ used h i = true) /\
     (tree h nd -> NoDup (map p_child l) -> NoDup out)).
  { induction l as [|p l IHl]; intros Hl.
    - exists []. split; [reflexivity|]. split; [|constructor]. intros ps i. split; [intros []|intros (p & qs & _ & [] & _)].
    - cbn [ugo]. assert (Hp : In p (n_parsers n)) by (apply Hl; left; auto). destruct (good nd n p Hn Hp) as [[m Hm] Hr]. rewrite (live_get _ _ _ Hm). cbn [ebind].
      destruct (IHl (fun x Hx => Hl x (or_intror Hx))) as (o2 & E2 & B1 & B2). rewrite E2.
      pose proof (used_live _ _ Hm) as HU. destruct (N.eqb (n_called m) 0) eqn:EC; cbn [negb] in HU; cbn [ebind].
      + exists o2. split; [reflexivity|]. split.
        * intros ps i. rewrite B1. split; intros (q & qs & E & Hq & C); exists q, qs; split; auto; [split; [right; auto|auto]|].
          destruct Hq as [<-|Hq]; [destruct C as [C _]; congruence|auto].
        * intros HT HN. apply B2; auto. inversion HN; auto.
      + destruct (IH (p_child p) m Hm ltac:(lia)) as (o1 & E1 & A1 & A2). rewrite E1. cbn [ebind].
        exists (map (fun x => (p :: fst x, snd x)) o1 ++ o2). split; [|split].
        * rewrite flat_map_app, flat_map_map'. reflexivity.
        * intros ps i. rewrite in_app_iff, in_map_iff, B1. split.
          -- intros [((qs & j) & E & Hq)|(q & qs & E & Hq & C)]; [|exists q, qs; cbn [In]; tauto]. cbn [fst snd] in E. injection E as <- <-. apply A1 in Hq as [C1 C2]. exists p, qs. cbn [In]. tauto.
          -- intros (q & qs & -> & [<-|Hq] & C1 & C2 & C3); [left; exists (qs, i); split; auto; apply A1; auto|right; exists q, qs; tauto].
        * intros HT HN. apply NoDup_app'.
          -- apply FinFun.Injective_map_NoDup; [|apply A2; eapply tree_child; eauto]. intros [a b] [a' b'] E. cbn [fst snd] in E. congruence.
          -- apply B2; auto. inversion HN; auto.
          -- intros x Hx Hx2. apply in_map_iff in Hx as ((qs & j) & <- & Hq). cbn [fst snd] in Hx2. apply B1 in Hx2 as (q & qs' & E & Hq2 & _). injection E as <- <-.
             inversion HN as [|a b N1 N2]; subst. apply N1. apply in_map. exact Hq2. }
  destruct (HGo (n_parsers n) (fun x Hx => Hx)) as (o & E & A1 & A2). rewrite E. cbn [ebind].
  exists ((if N.eqb (n_called n) 0 then [] else [([], nd)]) ++ o). pose proof (used_live _ _ Hn) as HU. split; [|split].
  - rewrite flat_map_app. destruct (N.eqb (n_called n) 0); [reflexivity|]. cbn [flat_map snd app]. unfold uline at 2. pose proof Hn as Hn'. red in Hn'. rewrite Hn', app_nil_r. reflexivity.
  - intros ps i. rewrite in_app_iff, A1. split.
    + intros [H|(p & qs & -> & Hp & C1 & C2 & C3)].
      * destruct (N.eqb (n_called n) 0); [destruct H|]. destruct H as [H|[]]. injection H as <- <-. split; [constructor|exact HU].
      * split; auto. econstructor; eauto.
    + intros [HP C]. inversion HP as [|i0 n0 p0 ps0 j0 Hl Hp Hk Hrest]; subst.
      * left. rewrite HU in C. destruct (N.eqb (n_called n) 0); [discriminate C|left; auto].
      * right. assert (n0 = n) by (red in Hl, Hn; congruence). subst. exists p0, ps0. auto.
  - intros HT. apply NoDup_app'.
    + destruct (N.eqb (n_called n) 0); repeat constructor. intros [].
    + apply A2; auto. destruct HT as [_ T2]. exact (T2 [] nd n (path_nil _ _) Hn).
    + intros x Hx Hx2. destruct (N.eqb (n_called n) 0); [destruct Hx|]. destruct Hx as [<-|[]]. apply A1 in Hx2 as (p & qs & E' & _). discriminate E'.
Qed.
End G.
