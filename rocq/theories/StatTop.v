(** * StatTop: the whole report. *)
From Coq Require Import Permutation.
From Verif Require Import Base BaseFacts Time Parsers Engine Pdag GraphSpec RuleSpec HeapFacts BuildFacts OptFacts LoadFacts Stat StatSpec StatFacts StatFacts2 StatFacts3 StatFacts4.

Section G.
Variable h : list (option node).
Variable rk : nat -> nat.
Hypothesis good : forall i n p, live h i n -> In p (n_parsers n) -> (exists m, live h (p_child p) m) /\ rk (p_child p) < rk i.
Hypothesis bound : forall i n, live h i n -> rk i < List.length h.
Variable comps : list nat.
Hypothesis comps_live : forall r, In r comps -> exists n, live h r n.
Let W (i : nat) : Prop := exists r, In r comps /\ below h everything r i.
Lemma W_down i n p : W i -> live h i n -> In p (n_parsers n) -> everything (p_child p) = true -> W (p_child p).
Proof.
  intros (r & Hr & ps & HP) Hi Hp _. exists r. split; auto. exists (ps ++ [p]). apply kpath_path in HP. apply kpath_path. eapply path_app; eauto. econstructor; eauto. constructor.
Qed.
Lemma below_live r i : (exists n, live h r n) -> below h everything r i -> exists n, live h i n.
Proof. intros [n Hn] (ps & HP). apply kpath_path in HP. revert n Hn. induction HP as [|i n0 p ps j Hl Hp HP IH]; intros n Hn; eauto. destruct (good _ _ _ Hl Hp) as [[m Hm] _]. eauto. Qed.

(** the component [r], where the flags [vis] are [seen] and some that do not matter *)
Lemma component_stats r seen vis : In r comps -> (forall k, closed h rk everything W k vis) -> (forall i, W i -> (In i vis <-> In i seen)) ->
  exists order k s vis', statsRec h (heap_fuel h) stats0 vis r = EOk (k, s, vis') /\ statsText s k = report h order k /\
    new_below h everything r seen order /\ (In r seen -> k = 0) /\ (~ In r seen -> exists ps i, path h r ps i /\ k = S (List.length ps)) /\
    (tree h r -> (forall i, below h everything r i -> ~ In i seen) -> longest h r k) /\
    (forall k, closed h rk everything W k vis') /\ Permutation vis' (order ++ vis) .
Proof.
  intros Hr HC HS. destruct (comps_live r Hr) as [n Hn]. assert (HWr : W r) by (exists r; split; auto; exists []; constructor).
  assert (HWb : forall i, below h everything r i -> W i) by (intros i Hi; exists r; auto).
  destruct (trav_all h rk good everything W W_down (heap_fuel h) vis r n HWr Hn) as (it & o & v & E & A1 & A2 & A3 & A4).
  { pose proof (bound _ _ Hn). unfold heap_fuel. lia. } { apply HC. }
  destruct (srec_trav h _ stats0 _ _ _ _ E) as [k Ek]. exists o, k, (fold_left count_item it stats0), v. destruct A1 as [A1 A1'].
  split; [exact Ek|]. split; [|split; [|split; [|split; [|split; [|split]]]]].
  - apply report_ok; auto. intros i Hi. apply A1' in Hi as [Hi _]. eapply below_live; eauto.
  - split; [exact A1|]. intros i. rewrite A1'. split; intros [H1 H2]; split; auto; intros H3; apply H2; apply HS; auto.
  - intros HH. apply HS in HH; auto. destruct (slen_path h _ _ _ _ _ _ _ Ek) as [[? _]|[? _]]; [auto|tauto].
  - intros HH. destruct (slen_path h _ _ _ _ _ _ _ Ek) as [[_ HX]|[_ HX]]; [exfalso; apply HH; apply HS; auto|exact HX].
  - intros HT HN. assert (HN' : forall ps i, path h r ps i -> ~ In i vis). { intros ps i HP Hi. assert (HB : below h everything r i) by (exists ps; apply kpath_path; auto). apply (HN i HB). apply HS; auto. }
    destruct (slen_path h _ _ _ _ _ _ _ Ek) as [[_ HX]|[_ HX]]; [exfalso; exact (HN' [] r (path_nil _ _) HX)|]. split; [exact HX|].
    destruct (slen_tree h rk good _ _ _ _ _ _ _ HT HN' Ek) as [HL _]. exact HL.
  - intros j. apply A4. apply HC.
  - exact A3.
Qed.
Lemma seen_step r seen order vis vis' : new_below h everything r seen order -> Permutation vis' (order ++ vis) -> (forall i, W i -> (In i vis <-> In i seen)) ->
  forall i, W i -> (In i vis' <-> In i (order ++ seen)).
Proof.
  intros HO HP HS i Hi. rewrite in_app_iff, <- (HS i Hi), <- in_app_iff. split; intros HX; [exact (Permutation_in _ HP HX)|exact (Permutation_in _ (Permutation_sym HP) HX)].
Qed.
Lemma type_parts ids : forall (ts : list (text * nat)) seen vis, (forall x, In x ts -> In (snd x) comps) -> (forall k, closed h rk everything W k vis) -> (forall i, W i -> (In i vis <-> In i seen)) ->
  forall rest, (forall vis' seen', (forall k, closed h rk everything W k vis') -> (forall i, W i -> (In i vis' <-> In i seen')) -> exists l, counted h [rest] seen' [l] /\ exists v, pdagStats h false ids vis' rest = EOk (report h (fst l) (snd l), v)) ->
  exists parts main v v', typeStats h false ids vis ts = EOk (flat_map (fun x => [chr 10] ++ full_line (L "type PDAG: " ++ fst x) ++ full_line (L "----------") ++ snd x) (combine (map fst ts) (map (fun x => report h (fst x) (snd x)) parts)), v) /\
    pdagStats h false ids v rest = EOk (report h (fst main) (snd main), v') /\
    List.length parts = List.length ts /\ counted h (map snd ts ++ [rest]) seen (parts ++ [main]).
Proof.
  induction ts as [|[nm d] ts IH]; intros seen vis HI HC HS rest HR.
  - destruct (HR vis seen HC HS) as (main & C & v & E). exists [], main, vis, v. split; [reflexivity|]. split; [exact E|]. split; [reflexivity|exact C].
  - destruct (component_stats d seen vis (HI (nm, d) (or_introl eq_refl)) HC HS) as (o & k & s & v1 & E1 & A1 & A2 & A3 & A4 & A5 & A6 & A7).
    destruct (IH (o ++ seen) v1 (fun x Hx => HI x (or_intror Hx)) A6 (seen_step _ _ _ _ _ A2 A7 HS) rest HR) as (parts & main & v2 & v3 & E2 & E3 & L2 & C2).
    exists ((o, k) :: parts), main, v2, v3. split; [|split; [exact E3|split; [cbn [List.length]; lia|]]].
    + cbn [typeStats pdagStats]. unfold pdagStats. rewrite E1. cbn [ebind]. rewrite E2. cbn [ebind]. rewrite A1. cbn [map combine flat_map fst snd]. unfold line, full_line, eol. rewrite <- !app_assoc. reflexivity.
    + cbn [map snd app]. econstructor; eauto.
Qed.
(** with the lines of use *)
Lemma component_ext ids r vis : In r comps -> not_below h comps vis ->
  exists order k l vis', pdagStats h true ids vis r = EOk (report h order k ++ full_line (L "Usage Statistics:") ++ full_line (L "-----------------") ++ full_line (L "called, backtracked, rule") ++ flat_map (fun x => uline h ids (snd x)) l, vis') /\
    counted h [r] [] [(order, k)] /\ (forall ps i, In (ps, i) l <-> kpath h (used h) r ps i /\ used h i = true) /\ (tree h r -> NoDup l) /\ not_below h comps vis'.
Proof.
  intros Hr HV. destruct (comps_live r Hr) as [n Hn].
  destruct (component_stats r [] vis Hr) as (o & k & s & v1 & E1 & A1 & A2 & A3 & A4 & A5 & A6 & A7).
  { intros j i m p (r' & Hr' & HB) Hi. exfalso. exact (HV i r' Hi Hr' HB). }
  { intros i (r' & Hr' & HB). split; [intros Hi; exact (HV i r' Hi Hr' HB)|intros []]. }
  destruct (clear_ok h rk good (heap_fuel h) v1 r n Hn) as (v2 & E2 & B2); [pose proof (bound _ _ Hn); unfold heap_fuel; lia|].
  destruct (usage_ok h rk good ids (heap_fuel h) r n Hn) as (l & E3 & B3 & B4); [pose proof (bound _ _ Hn); unfold heap_fuel; lia|].
  exists o, k, l, v2. split; [|split; [|split; [exact B3|split; [exact B4|]]]].
  - unfold pdagStats. rewrite E1. cbn [ebind]. rewrite E2. cbn [ebind]. rewrite E3. cbn [ebind]. rewrite A1. reflexivity.
  - econstructor; eauto. constructor.
  - intros i r' Hi Hr' HB. apply B2 in Hi as [Hi1 Hi2]. apply (Permutation_in _ A7) in Hi1. apply in_app_or in Hi1 as [Hi1|Hi1].
    + apply Hi2. apply A2 in Hi1. tauto.
    + exact (HV i r' Hi1 Hr' HB).
Qed.
End G.
