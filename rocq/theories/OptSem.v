(** * OptSem: what the elementary steps of the optimizer keep. *)
From Verif Require Import Base Parsers Engine Pdag Samp GraphSpec RuleSpec BaseFacts EngineFacts2 HeapFacts.
From Coq Require Import ZifyBool ZifyNat ZifyN Permutation Sorted.

Definition hr (h : list (option node)) (i : nat) (l : list atom) (inf : rule_info) : Prop :=
  exists ps b n, path h i ps b /\ live h b n /\ n_term n = true /\ inf = (n_tags n, n_file n, n_line n) /\ atoms (labels ps) = l.
Lemma holds_hr cx r l inf : holds_atoms cx r l inf <-> hr (c_nodes cx) r l inf.
Proof.
  unfold holds_atoms, holds_rule, hr. split.
  - intros (ps & (b & n & A & B & C & D) & E). exists ps, b, n. auto.
  - intros (ps & b & n & A & B & C & D & E). exists ps. split; auto. exists b, n. auto.
Qed.

Definition prios (n : node) : list Z := map p_prio (n_parsers n).
Definition ordered (n : node) : Prop := StronglySorted Z.le (prios n).
Definition card (p : prs) : json * option text * Z := (p_conf p, p_name p, p_prio p).

(** every parser of the graph *)
Definition all_prs (P : prs -> Prop) (h : list (option node)) : Prop := forall i n p, live h i n -> In p (n_parsers n) -> P p.

(** what stays the same ([S]: assumptions under which order is kept) *)
Record orel (S : Prop) (h h' : list (option node)) : Prop := {
  o_live : forall i n', live h' i n' -> exists n, live h i n /\ n_term n' = n_term n /\ n_tags n' = n_tags n /\ n_file n' = n_file n /\ n_line n' = n_line n /\
     Permutation (map card (n_parsers n')) (map card (n_parsers n)) /\ (S -> ordered n -> ordered n');
  o_hr : forall i n', live h' i n' -> forall l inf, hr h i l inf <-> hr h' i l inf;
  o_path : forall i n' ps j, live h' i n' -> path h' i ps j -> exists ps', path h i ps' j;
  o_kinds : forall P : prs -> Prop, (forall t p, p_kind p = KSimple (MLiteral t) -> P p) -> all_prs P h -> all_prs P h' }.

Lemma orel_refl S h : orel S h h.
Proof. constructor; [intros i n H; exists n; repeat split; auto|reflexivity|eauto|auto]. Qed.
Lemma orel_trans S a b c : orel S a b -> orel S b c -> orel S a c.
Proof.
  intros A B. constructor.
  - intros i n2 H2. destruct (o_live _ _ _ B _ _ H2) as (n1 & H1 & E1 & E2 & E3 & E4 & E5 & E6). destruct (o_live _ _ _ A _ _ H1) as (n0 & H0 & F1 & F2 & F3 & F4 & F5 & F6).
    exists n0. repeat split; auto; try congruence. rewrite E5. exact F5.
  - intros i n2 H2 l inf. destruct (o_live _ _ _ B _ _ H2) as (n1 & H1 & _). rewrite (o_hr _ _ _ A _ _ H1). apply (o_hr _ _ _ B _ _ H2).
  - intros i n2 ps j H2 HP. destruct (o_live _ _ _ B _ _ H2) as (n1 & H1 & _). destruct (o_path _ _ _ B _ _ _ _ H2 HP) as [ps1 HP1]. apply (o_path _ _ _ A _ _ _ _ H1 HP1).
  - intros P HL H. apply (o_kinds _ _ _ B P HL). apply (o_kinds _ _ _ A P HL). exact H.
Qed.

Lemma perm_card l l' : Permutation l l' -> Permutation (map card l) (map card l'). Proof. apply Permutation_map. Qed.

(** reordering the parsers of a node *)
Lemma orel_perm (S : Prop) h nd n ps : live h nd n -> Permutation ps (n_parsers n) -> (S -> StronglySorted Z.le (map p_prio ps)) ->
  orel S h (upd_node h nd (fun n => set_parsers n ps)).
Proof.
  intros Hn HP HS. set (h' := upd_node h nd (fun n => set_parsers n ps)).
  assert (HL : forall i m', live h' i m' -> exists m, live h i m /\ (m' = m \/ (i = nd /\ m = n /\ m' = set_parsers n ps))).
  { intros i m' H. apply live_upd in H as [[_ H]|[<- (n0 & H & ->)]]; [exists m'; auto|]. assert (n0 = n) by (eapply live_fun; eauto). subst n0. exists n. split; auto. }
  assert (HP1 : forall i ps1 j, path h' i ps1 j -> path h i ps1 j).
  { intros i ps1 j H. induction H as [|i m p ps1 j Hm Hp HPa IH]; [constructor|]. apply HL in Hm as (m0 & Hm & [->|(-> & -> & ->)]); econstructor; eauto. cbn in Hp. eapply Permutation_in; eauto. }
  assert (HP2 : forall i ps1 j, path h i ps1 j -> path h' i ps1 j).
  { intros i ps1 j H. induction H as [|i m p ps1 j Hm Hp HPa IH]; [constructor|]. destruct (Nat.eq_dec nd i) as [<-|Hne].
    - assert (m = n) by (eapply live_fun; eauto). subst m. econstructor; [apply (live_upd_same h nd n (fun n => set_parsers n ps)); eauto| |exact IH]. cbn. eapply Permutation_in; [apply Permutation_sym|]; eauto.
    - econstructor; [apply live_upd_other; eauto|eauto|exact IH]. }
  constructor.
  - intros i m' H. apply HL in H as (m & Hm & [->|(-> & -> & ->)]); eexists; (split; [exact Hm|]); cbn; repeat split; auto; [apply perm_card; exact HP|]. intros Hs _. unfold ordered, prios. cbn. auto.
  - intros i m' _ l inf. split.
    + intros (ps1 & b & m & A & B & C & D & E). destruct (Nat.eq_dec nd b) as [<-|Hne].
      * assert (m = n) by (eapply live_fun; eauto). subst m. exists ps1, nd, (set_parsers n ps). split; auto. split; [apply (live_upd_same h nd n (fun n => set_parsers n ps)); auto|auto].
      * exists ps1, b, m. split; auto. split; [apply live_upd_other; auto|auto].
    + intros (ps1 & b & m & A & B & C & D & E). apply HL in B as (m0 & Hm & [->|(-> & -> & ->)]); exists ps1; [exists b, m0|exists nd, n]; auto.
  - intros i m' ps1 j _ H. eauto.
  - intros P _ HA i m' p Hm Hp. apply HL in Hm as (m & Hm & [->|(-> & -> & ->)]); [eapply HA; eauto|]. cbn in Hp. eapply HA; [exact Hm|]. eapply Permutation_in; eauto.
Qed.

Lemma atoms_cons r ps : atoms (labels (r :: ps)) = atoms_of (p_kind r, p_name r) ++ atoms (labels ps). Proof. reflexivity. Qed.
(** joining two literals *)
Lemma orel_compact S H nd nn cn dn p q todo a b p' :
  live H nd nn -> n_parsers nn = dn ++ p :: todo -> live H (p_child p) cn -> n_parsers cn = [q] -> n_term cn = false ->
  p_kind p = KSimple (MLiteral a) -> p_name p = None -> p_kind q = KSimple (MLiteral b) -> p_name q = None ->
  p' = {| p_kind := KSimple (MLiteral (combineLiteral a b)); p_name := p_name p; p_conf := p_conf p; p_prio := p_prio p; p_child := p_child q |} ->
  nd <> p_child p -> (forall j m r, live H j m -> j <> nd -> In r (n_parsers m) -> p_child r <> p_child p) -> (forall r, In r (dn ++ todo) -> p_child r <> p_child p) ->
  orel S H (free_nth (upd_node H nd (fun n => set_parsers n (dn ++ p' :: todo))) (p_child p)).
Proof.
  intros Hnd Ends Hcn Eq Ht Kp Np Kq Nq Ep' Hne R1 R2. set (c := p_child p) in *. set (H' := free_nth _ c).
  set (nn' := set_parsers nn (dn ++ p' :: todo)).
  assert (HL : forall i m', live H' i m' -> i <> c /\ exists m, live H i m /\ (m' = m /\ i <> nd \/ (i = nd /\ m = nn /\ m' = nn'))).
  { intros i m' HH. apply live_free in HH as [Hc HH]. split; auto. apply live_upd in HH as [[Hx HH]|[<- (n0 & HH & ->)]]; [exists m'; split; auto|]. assert (n0 = nn) by (eapply live_fun; eauto). subst n0. exists nn. split; auto. }
  assert (HL2 : forall i m, live H i m -> i <> c -> i <> nd -> live H' i m). { intros i m HH Hc Hn. apply live_free. split; auto. apply live_upd_other; auto. }
  assert (HLn : live H' nd nn'). { apply live_free. split; auto. apply (live_upd_same H nd nn (fun n => set_parsers n (dn ++ p' :: todo))). auto. }
  assert (Hq : p_child q <> c). { apply (R1 c cn q Hcn); auto. rewrite Eq. left. auto. }
  assert (Hkid : forall i m r, live H i m -> i <> c -> In r (n_parsers m) -> p_child r <> c \/ (i = nd /\ r = p)).
  { intros i m r Hm Hi Hr. destruct (Nat.eq_dec i nd) as [->|Hn]; [|left; eapply R1; eauto]. assert (m = nn) by (eapply live_fun; eauto). subst m. rewrite Ends in Hr. apply in_app_or in Hr as [Hr|[<-|Hr]]; auto; left; apply R2; apply in_or_app; auto. }
  (* old to new *)
  assert (F : forall k i ps j, List.length ps <= k -> path H i ps j -> i <> c -> j <> c -> exists ps', path H' i ps' j /\ atoms (labels ps') = atoms (labels ps)).
  { induction k as [|k IH]; intros i ps j Hk HP Hi Hj.
    - destruct ps; [|cbn in Hk; lia]. inversion HP; subst. exists []. split; [constructor|auto].
    - inversion HP as [|? m r ps1 ? Hm Hr HP1]; subst; [exists []; split; [constructor|auto]|]. cbn in Hk.
      destruct (Nat.eq_dec i nd) as [->|Hn].
      + assert (m = nn) by (eapply live_fun; eauto). subst m. pose proof Hr as Hr0. rewrite Ends in Hr. apply in_app_or in Hr as [Hr|[<-|Hr]].
        * destruct (IH (p_child r) ps1 j) as (ps2 & A & B); [lia|auto|apply R2; apply in_or_app; auto|auto|]. exists (r :: ps2). split; [econstructor; [exact HLn|cbn; apply in_or_app; auto|auto]|rewrite !atoms_cons; congruence].
        * fold c in HP1. inversion HP1 as [|? m2 r2 ps2 ? Hm2 Hr2 HP2]; subst; [congruence|]. assert (m2 = cn) by (eapply live_fun; eauto). subst m2. rewrite Eq in Hr2. destruct Hr2 as [<-|[]]. cbn in Hk.
          destruct (IH (p_child q) ps2 j) as (ps3 & A & B); [lia|auto|auto|auto|].
          eexists. split; [eapply path_cons; [exact HLn|cbn; apply in_or_app; right; left; reflexivity|exact A]|].
          rewrite !atoms_cons. cbn [p_kind p_name]. rewrite Kp, Np, Kq, Nq. cbn [atoms_of]. unfold combineLiteral. rewrite map_app, <- app_assoc, B. reflexivity.
        * destruct (IH (p_child r) ps1 j) as (ps2 & A & B); [lia|auto|apply R2; apply in_or_app; auto|auto|]. exists (r :: ps2). split; [econstructor; [exact HLn|cbn; apply in_or_app; right; right; auto|auto]|rewrite !atoms_cons; congruence].
      + destruct (Hkid i m r Hm Hi Hr) as [Hc|[? _]]; [|congruence]. destruct (IH (p_child r) ps1 j) as (ps2 & A & B); [lia|auto|auto|auto|]. exists (r :: ps2). split; [econstructor; [apply HL2; eauto|auto|auto]|rewrite !atoms_cons; congruence]. }
  (* new to old *)
  assert (G : forall i ps j, path H' i ps j -> exists ps', path H i ps' j /\ atoms (labels ps') = atoms (labels ps)).
  { intros i ps j HP. induction HP as [i|i m r ps j Hm Hr HP IH]; [exists []; split; [constructor|auto]|]. destruct IH as (ps1 & A & B).
    apply HL in Hm as (Hc & m0 & Hm0 & [[-> Hn]|(-> & -> & ->)]); [exists (r :: ps1); split; [econstructor; eauto|rewrite !atoms_cons; congruence]|].
    cbn in Hr. apply in_app_or in Hr as [Hr|[<-|Hr]].
    - exists (r :: ps1). split; [econstructor; [exact Hnd|rewrite Ends; apply in_or_app; auto|auto]|rewrite !atoms_cons; congruence].
    - exists (p :: q :: ps1). split.
      + econstructor; [exact Hnd|rewrite Ends; apply in_or_app; cbn; auto|]. econstructor; [exact Hcn|rewrite Eq; left; auto|]. rewrite Ep' in A. exact A.
      + rewrite Ep', !atoms_cons. cbn [p_kind p_name]. rewrite Kp, Np, Kq, Nq. cbn [atoms_of]. unfold combineLiteral. rewrite map_app, <- app_assoc, B. reflexivity.
    - exists (r :: ps1). split; [econstructor; [exact Hnd|rewrite Ends; apply in_or_app; cbn; auto|auto]|rewrite !atoms_cons; congruence]. }
  constructor.
  - intros i m' HH. apply HL in HH as (Hc & m & Hm & [[-> _]|(-> & -> & ->)]); eexists; (split; [exact Hm|]); [repeat split; auto|]. cbn. repeat (split; [reflexivity|]). rewrite Ends.
    split; [rewrite !map_app; cbn; rewrite Ep'; reflexivity|]. unfold ordered, prios. cbn [nn' set_parsers n_parsers]. rewrite Ends, !map_app. cbn. rewrite Ep'. cbn. auto.
  - intros i m' HH l inf. pose proof (HL _ _ HH) as (Hc & _). split.
    + intros (ps & j & m & A & B & C & D & E). assert (Hj : j <> c). { intros ->. assert (m = cn) by (eapply live_fun; eauto). congruence. }
      destruct (F (List.length ps) i ps j (le_n _) A Hc Hj) as (ps' & A' & E'). destruct (Nat.eq_dec j nd) as [->|Hn].
      * assert (m = nn) by (eapply live_fun; eauto). subst m. exists ps', nd, nn'. repeat split; auto. congruence.
      * exists ps', j, m. split; auto. split; [apply HL2; auto|]. repeat split; auto. congruence.
    + intros (ps & j & m & A & B & C & D & E). destruct (G _ _ _ A) as (ps' & A' & E'). apply HL in B as (_ & m0 & Hm & [[-> _]|(-> & -> & ->)]).
      * exists ps', j, m0. repeat split; auto. congruence.
      * exists ps', nd, nn. repeat split; auto. congruence.
  - intros i m' ps j _ HP. destruct (G _ _ _ HP) as (ps' & A & _). eauto.
  - intros P HPL HA i m' r Hm Hr. apply HL in Hm as (_ & m & Hm & [[-> _]|(-> & -> & ->)]); [eapply HA; eauto|]. cbn in Hr.
    apply in_app_or in Hr as [Hr|[<-|Hr]]; [eapply HA; [exact Hnd|]; rewrite Ends; apply in_or_app; auto|eapply HPL; rewrite Ep'; reflexivity|eapply HA; [exact Hnd|]; rewrite Ends; apply in_or_app; cbn; auto].
Qed.
