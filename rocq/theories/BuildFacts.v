(** * BuildFacts: the steps that build the graph keep the reference counts exact. *)
From Verif Require Import Base Parsers Engine Pdag GraphSpec BaseFacts EngineFacts2 HeapFacts DeleteFacts.
From Coq Require Import ZifyBool ZifyNat ZifyN.

(** ** outcomes: no freed memory is touched, the model's fuel suffices *)
Definition epost {A} (Q : A -> Prop) (x : er A) : Prop :=
  match x with EOk a => Q a | EUb u => u <> UseAfterFree /\ u <> OutOfFuel end.
Lemma epost_bind {A B} (P : A -> Prop) (Q : B -> Prop) x (f : A -> er B) :
  epost P x -> (forall a, P a -> epost Q (f a)) -> epost Q (do* a := x in f a).
Proof. destruct x; cbn; auto. Qed.
Lemma epost_mono {A} (P Q : A -> Prop) x : epost P x -> (forall a, P a -> Q a) -> epost Q x.
Proof. destruct x; cbn; auto. Qed.
Lemma epost_true {A} (x : er A) (Q : A -> Prop) : epost (fun _ => True) x -> (forall a, x = EOk a -> Q a) -> epost Q x.
Proof. destruct x; cbn; auto. Qed.

(** ** Conditions on the heap *)
Definition gi h R rk := inv h R /\ positive h /\ ranked h rk.
Definition mono (n : nat) (rk rk' : nat -> nat) : Prop := forall i j, i < n -> j < n -> rk i < rk j -> rk' i < rk' j.
(** references of surviving nodes are kept or accounted for in [G] (lost) *)
Definition ext (h h' : list (option node)) (G : list nat) : Prop :=
  forall i n n', live h i n -> live h' i n' -> incl (flat_map targets (n_parsers n)) (flat_map targets (n_parsers n') ++ G).
Definition room (h : list (option node)) (K : nat) : Prop :=
  K <= 255 /\ forall i n, live h i n -> List.length (n_parsers n) + K <= 255.

Lemma gi_perm h R R' rk : (forall j, cnt R j = cnt R' j) -> gi h R rk -> gi h R' rk.
Proof. intros HP (H1 & H2 & H3). repeat split; auto; apply (inv_perm h R R' HP H1). Qed.
Lemma gi_live h R rk j : gi h R rk -> In j R -> exists n, live h j n.
Proof. intros ((_ & H) & _) Hj. apply H. apply in_or_app. auto. Qed.
Lemma gi_target h R rk i n p t : gi h R rk -> live h i n -> In p (n_parsers n) -> In t (targets p) -> exists m, live h t m.
Proof. intros ((_ & H) & HP & _) Hi Hp Ht. apply H. apply in_or_app. left. apply cedges_in. exists i, n, p. repeat split; auto. eapply HP; eauto. Qed.
Lemma gi_held h R rk i n : gi h R rk -> live h i n -> In i R \/ exists j m, live h j m /\ In i (flat_map targets (n_parsers m)).
Proof.
  intros ((H1 & _) & HP & _) Hi. specialize (HP _ _ Hi). specialize (H1 _ _ Hi).
  assert (In i (cedges h ++ R)) as Hin by (apply cnt_pos; lia). apply in_app_or in Hin as [Hin|]; auto.
  apply cedges_in in Hin as (j & m & p & Hj & _ & Hp & Ht). right. exists j, m. split; auto. apply in_flat_map. eauto.
Qed.

Lemma rank_bound h rk : exists B, forall i n, live h i n -> rk i <= B.
Proof.
  exists (list_max (map rk (seq 0 (List.length h)))). intros i n Hi. apply live_lt in Hi.
  assert (HH : Forall (fun k => k <= list_max (map rk (seq 0 (List.length h)))) (map rk (seq 0 (List.length h)))) by (apply list_max_le; lia).
  rewrite Forall_forall in HH. apply HH. apply in_map. apply in_seq. lia.
Qed.

Lemma survive h R rk h' R' rk' G : gi h R rk -> gi h' R' rk' -> incl R R' -> incl G R' -> ext h h' G ->
  forall i n, live h i n -> exists n', live h' i n'.
Proof.
  intros HG HG' HR HGR HE. destruct (rank_bound h rk) as [B HB].
  assert (forall d i n, B - rk i <= d -> live h i n -> exists n', live h' i n') as K.
  { induction d as [|d IH]; intros i n Hd Hi; destruct (gi_held _ _ _ _ _ HG Hi) as [Hin|(j & m & Hj & Ht)];
      try (eapply gi_live; eauto; fail).
    - apply in_flat_map in Ht as (p & Hp & Ht). destruct HG as (_ & _ & HK). pose proof (HK _ _ _ _ Hj Hp Ht). pose proof (HB _ _ Hj). lia.
    - assert (exists m', live h' j m') as [m' Hm'].
      { apply (IH j m); auto. apply in_flat_map in Ht as (p & Hp & Ht). destruct HG as (_ & _ & HK). pose proof (HK _ _ _ _ Hj Hp Ht). pose proof (HB _ _ Hj). lia. }
      specialize (HE _ _ _ Hj Hm' _ Ht). apply in_app_or in HE as [HE|HE].
      + apply in_flat_map in HE as (p & Hp & HE). eapply gi_target; eauto.
      + eapply gi_live; eauto. }
  intros i n Hi. eapply (K _ i n (le_n _)); eauto.
Qed.

(** ** Steps: from (h, R) to h', with new references [F] held by the caller and lost ones [G].
    [k] bounds the number of parsers added to a node; [nd]: nothing is lost if it holds and
    there is room. *)
Record step (h : list (option node)) (R : list nat) (rk : nat -> nat) (k : nat) (nd : Prop)
            (h' : list (option node)) (F G : list nat) (rk' : nat -> nat) : Prop := {
  s_gi : gi h' (F ++ G ++ R) rk';
  s_len : List.length h <= List.length h';
  s_mono : mono (List.length h) rk rk';
  s_ext : ext h h' G;
  s_room : forall K, room h (k + K) -> room h' K /\ (nd -> G = []) }.

Lemma step_survive h R rk k nd h' F G rk' : gi h R rk -> step h R rk k nd h' F G rk' -> forall i n, live h i n -> exists n', live h' i n'.
Proof.
  intros HG HS. destruct HS. eapply survive; eauto; intros x Hx; apply in_or_app; right; apply in_or_app; auto.
Qed.
Lemma step_refl h R rk nd : gi h R rk -> step h R rk 0 nd h [] [] rk.
Proof.
  intros HG. constructor; auto.
  - intros i j _ _ H. exact H.
  - intros i n n' Hi Hi' x Hx. rewrite (live_fun _ _ _ _ Hi' Hi). rewrite app_nil_r. exact Hx.
Qed.
Lemma step_weak h R rk k k' (nd nd' : Prop) h' F G rk' : k <= k' -> (nd' -> nd) -> step h R rk k nd h' F G rk' -> step h R rk k' nd' h' F G rk'.
Proof.
  intros Hk Hn [S1 S2 S3 S4 S5]. constructor; auto. intros K HK. destruct (S5 (k' - k + K)) as [[HR1 HR2] HN].
  - destruct HK as [HK1 HK2]. split; [lia|]. intros i n Hi. specialize (HK2 _ _ Hi). lia.
  - split; auto. split; [lia|]. intros i n Hi. specialize (HR2 _ _ Hi). lia.
Qed.
Lemma step_trans h R rk k1 nd1 h1 F1 G1 rk1 k2 nd2 h2 F2 G2 rk2 :
  gi h R rk -> step h R rk k1 nd1 h1 F1 G1 rk1 -> step h1 (F1 ++ G1 ++ R) rk1 k2 nd2 h2 F2 G2 rk2 ->
  step h R rk (k1 + k2) (nd1 /\ nd2) h2 (F2 ++ F1) (G2 ++ G1) rk2.
Proof.
  intros HG A B. pose proof (step_survive _ _ _ _ _ _ _ _ _ HG A) as HV. destruct A as [A1 A2 A3 A4 A5], B as [B1 B2 B3 B4 B5].
  constructor.
  - eapply gi_perm; [|exact B1]. intros j. rewrite !cnt_app. lia.
  - lia.
  - intros i j Hi Hj Hij. apply B3; try lia. apply A3; auto.
  - intros i n n' Hi Hi' x Hx. destruct (HV _ _ Hi) as [n1 Hn1]. specialize (A4 _ _ _ Hi Hn1 _ Hx).
    apply in_app_or in A4 as [A4|A4]; [|apply in_or_app; right; apply in_or_app; auto].
    specialize (B4 _ _ _ Hn1 Hi' _ A4). apply in_app_or in B4 as [B4|B4]; apply in_or_app; auto. right. apply in_or_app; auto.
  - intros K HK. rewrite <- Nat.add_assoc in HK. destruct (A5 _ HK) as [HK1 HN1]. destruct (B5 _ HK1) as [HK2 HN2]. split; auto.
    intros [n1 n2]. rewrite HN1, HN2; auto.
Qed.
(** a step whose floats are not new: from (h, F0 ++ R) *)
Lemma step_perm h R R' rk k nd h' F F' G rk' : (forall j, cnt (F ++ R) j = cnt (F' ++ R') j) -> step h R rk k nd h' F G rk' ->
  gi h' (F' ++ G ++ R') rk'.
Proof. intros HP [S1 _ _ _ _]. eapply gi_perm; [|exact S1]. intros j. specialize (HP j). rewrite !cnt_app in *. lia. Qed.
Lemma step_F h R rk k nd h' F F' G rk' : (forall j, cnt F j = cnt F' j) -> step h R rk k nd h' F G rk' -> step h R rk k nd h' F' G rk'.
Proof. intros HP [S1 S2 S3 S4 S5]. constructor; auto. eapply gi_perm; [|exact S1]. intros j. rewrite !cnt_app, HP. reflexivity. Qed.

(** ** primitive steps *)
Lemma cedges_app h x : cedges (h ++ [x]) = cedges h ++ cedge x.
Proof. unfold cedges. rewrite flat_map_app. cbn. rewrite app_nil_r. reflexivity. Qed.

Definition fresh_rank (n : nat) (rk : nat -> nat) : nat -> nat := fun j => if Nat.eqb j n then 0 else S (rk j).

Lemma gi_lt h R rk j : gi h R rk -> In j (cedges h ++ R) -> j < List.length h.
Proof. intros ((_ & H) & _) Hj. destruct (H _ Hj) as [n Hn]. eapply live_lt; eauto. Qed.
Lemma cnt_fresh h R rk : gi h R rk -> cnt (cedges h ++ R) (List.length h) = 0.
Proof.
  intros HG. destruct (cnt (cedges h ++ R) (List.length h)) eqn:E; auto. exfalso.
  assert (In (List.length h) (cedges h ++ R)) by (apply cnt_pos; lia). pose proof (gi_lt _ _ _ _ HG H). lia.
Qed.

Lemma step_new h R rk nd : gi h R rk -> step h R rk 0 nd (h ++ [Some new_node]) [List.length h] [] (fresh_rank (List.length h) rk).
Proof.
  intros HG. pose proof (cnt_fresh _ _ _ HG) as HF. pose proof HG as ((H1 & H2) & HP & HK). constructor.
  - repeat split.
    + intros i n Hi. rewrite cedges_app. cbn [cedge new_node n_refcnt]. cbn [app]. rewrite !cnt_app, cnt_cons.
      replace (cnt (if Z.ltb 0 1 then flat_map targets (n_parsers new_node) else []) i) with 0 by reflexivity.
      apply live_app in Hi as [Hi|[-> E]].
      * rewrite (H1 _ _ Hi), cnt_app. pose proof (live_lt _ _ _ Hi). destruct (Nat.eq_dec (List.length h) i); lia.
      * injection E as <-. rewrite cnt_app in HF. destruct (Nat.eq_dec (List.length h) (List.length h)) as [_|]; [|congruence]. cbn [n_refcnt new_node]. lia.
    + intros j Hj. rewrite cedges_app in Hj. cbn in Hj. rewrite app_nil_r in Hj. apply in_app_or in Hj as [Hj|[<-|Hj]].
      * destruct (H2 j) as [n Hn]; [apply in_or_app; auto|]. exists n. apply live_app. auto.
      * exists new_node. apply live_app. auto.
      * destruct (H2 j) as [n Hn]; [apply in_or_app; auto|]. exists n. apply live_app. auto.
    + intros i n Hi. apply live_app in Hi as [Hi|[-> E]]; [eauto|]. injection E as <-. reflexivity.
    + intros i n p t Hi Hp Ht. apply live_app in Hi as [Hi|[-> E]]; [|injection E as <-; destruct Hp].
      pose proof (live_lt _ _ _ Hi). unfold fresh_rank. destruct (Nat.eqb_spec i (List.length h)); [lia|]. destruct (Nat.eqb t _); [lia|].
      specialize (HK _ _ _ _ Hi Hp Ht). lia.
  - rewrite app_length. lia.
  - intros i j Hi Hj Hij. unfold fresh_rank. destruct (Nat.eqb_spec i (List.length h)), (Nat.eqb_spec j (List.length h)); lia.
  - intros i n n' Hi Hi' x Hx. apply live_app in Hi' as [Hi'|[-> E]]; [|apply live_lt in Hi; lia]. rewrite (live_fun _ _ _ _ Hi' Hi), app_nil_r. exact Hx.
  - intros K [HK1 HK2]. split; auto. split; [lia|]. intros i n Hi. apply live_app in Hi as [Hi|[-> E]]; [specialize (HK2 _ _ Hi); lia|]. injection E as <-. cbn. lia.
Qed.

(** attaching a parser whose references are held by the caller *)
Lemma gi_attach h T R rk d n p : gi h (targets p ++ R) rk -> live h d n -> (forall t, In t (targets p) -> rk t < rk d) ->
  T = targets p ->
  let h' := upd_node h d (fun n => set_parsers n (push_parser (n_parsers n) p)) in
  exists G, gi h' (G ++ R) rk /\ ext h h' G /\ List.length h' = List.length h /\
    (forall K, room h (1 + K) -> room h' K /\ G = []) .
Proof.
  intros HG Hd HT -> h'. pose proof HG as ((H1 & H2) & HP & HK).
  pose proof (HP _ _ Hd) as Hdp.
  set (f := fun n : node => set_parsers n (push_parser (n_parsers n) p)) in *.
  assert (HC : forall j, cnt (cedges h') j + cnt (flat_map targets (n_parsers n)) j = cnt (cedges h) j + cnt (flat_map targets (push_parser (n_parsers n) p)) j).
  { intros j. pose proof (cedges_upd_cnt h d n f j Hd) as HH. fold h' in HH. unfold f in HH. cbn [cedge set_parsers n_refcnt n_parsers] in HH.
    replace (Z.ltb 0 (n_refcnt n)) with true in HH by lia. exact HH. }
  exists (if Nat.eqb (List.length (n_parsers n)) 255 then flat_map targets (n_parsers n) ++ targets p else []).
  set (G := if Nat.eqb (List.length (n_parsers n)) 255 then _ else _).
  assert (HCG : forall j, cnt (cedges h' ++ G ++ R) j = cnt (cedges h ++ targets p ++ R) j).
  { intros j. specialize (HC j). rewrite !cnt_app. unfold G, push_parser in *. destruct (Nat.eqb _ 255).
    - rewrite cnt_app. cbn [flat_map count_occ] in HC. lia.
    - rewrite flat_map_app, cnt_app in HC. cbn [flat_map] in HC. rewrite app_nil_r in HC. cbn [count_occ]. lia. }
  assert (HLV : forall j m, live h' j m -> exists m0, live h j m0 /\ n_refcnt m = n_refcnt m0).
  { intros j m Hj. apply live_upd in Hj as [[_ Hj]|[<- (n0 & Hn0 & ->)]]; eauto. }
  assert (HLV2 : forall j m, live h j m -> exists m0, live h' j m0).
  { intros j m Hj. destruct (Nat.eq_dec d j) as [<-|Hne]; [exists (f m); apply live_upd_same; auto|exists m; apply live_upd_other; auto]. }
  split; [|split; [|split; [unfold h', upd_node; apply upd_nth_length|]]].
  - repeat split.
    + intros i m Hi. rewrite HCG. destruct (HLV _ _ Hi) as (m0 & Hm0 & ->). apply H1. auto.
    + intros j Hj. apply cnt_pos in Hj. rewrite HCG in Hj. apply cnt_pos in Hj. destruct (H2 _ Hj) as [m Hm]. eauto.
    + intros i m Hi. destruct (HLV _ _ Hi) as (m0 & Hm0 & ->). eauto.
    + intros i m q t Hi Hq Ht. apply live_upd in Hi as [[_ Hi]|[<- (n0 & Hn0 & ->)]]; [eauto|].
      assert (n0 = n) by (eapply live_fun; eauto). subst n0. unfold f in Hq. cbn [set_parsers n_parsers] in Hq. unfold push_parser in Hq.
      destruct (Nat.eqb _ 255); [destruct Hq|]. apply in_app_or in Hq as [Hq|[<-|[]]]; eauto.
  - intros i m m' Hi Hi' x Hx. apply live_upd in Hi' as [[_ Hi']|[<- (n0 & Hn0 & ->)]].
    + rewrite (live_fun _ _ _ _ Hi' Hi). apply in_or_app. auto.
    + assert (n0 = n) by (eapply live_fun; eauto). assert (m = n) by (eapply live_fun; eauto). subst n0 m. unfold f, G. cbn [set_parsers n_parsers]. unfold push_parser.
      destruct (Nat.eqb _ 255); [cbn; apply in_or_app; auto|]. rewrite flat_map_app, app_nil_r. apply in_or_app. auto.
  - intros K [HK1 HK2]. pose proof (HK2 _ _ Hd) as HKd. unfold G. destruct (Nat.eqb_spec (List.length (n_parsers n)) 255) as [E|E]; [lia|]. split; auto.
    split; [lia|]. intros i m Hi. apply live_upd in Hi as [[_ Hi]|[<- (n0 & Hn0 & ->)]]; [specialize (HK2 _ _ Hi); lia|].
    assert (n0 = n) by (eapply live_fun; eauto). subst n0. unfold f. cbn [set_parsers n_parsers]. unfold push_parser.
    destruct (Nat.eqb_spec (List.length (n_parsers n)) 255); [lia|]. rewrite app_length. cbn. lia.
Qed.

Lemma step_attach h R rk k nd h1 F G rk1 d n p :
  step h R rk k nd h1 (targets p ++ F) G rk1 -> live h1 d n -> (forall t, In t (targets p) -> rk1 t < rk1 d) ->
  gi h R rk ->
  exists G', step h R rk (k + 1) nd (upd_node h1 d (fun n => set_parsers n (push_parser (n_parsers n) p))) F (G' ++ G) rk1.
Proof.
  intros HS Hd HT HG0. pose proof (step_survive _ _ _ _ _ _ _ _ _ HG0 HS) as HV. destruct HS as [S1 S2 S3 S4 S5].
  assert (HG : gi h1 (targets p ++ (F ++ G ++ R)) rk1) by (rewrite app_assoc; exact S1).
  destruct (gi_attach h1 (targets p) (F ++ G ++ R) rk1 d n p HG Hd HT eq_refl) as (G' & A1 & A2 & A3 & A4).
  exists G'. constructor.
  - eapply gi_perm; [|exact A1]. intros j. rewrite !cnt_app. lia.
  - unfold upd_node. rewrite upd_nth_length. lia.
  - auto.
  - intros i m m' Hi Hi' x Hx. destruct (HV _ _ Hi) as [m1 Hm1]. specialize (S4 _ _ _ Hi Hm1 _ Hx).
    apply in_app_or in S4 as [S4|S4]; [|apply in_or_app; right; apply in_or_app; auto].
    specialize (A2 _ _ _ Hm1 Hi' _ S4). apply in_app_or in A2 as [A2|A2]; apply in_or_app; auto. right. apply in_or_app; auto.
  - intros K HK. rewrite <- Nat.add_assoc in HK. destruct (S5 _ HK) as [HK1 HN1]. destruct (A4 _ HK1) as [HK2 ->]. auto.
Qed.

(** one more reference to an existing node *)
Lemma gi_share h R rk i n : gi h R rk -> live h i n ->
  gi (upd_node h i (fun m => set_refcnt m (n_refcnt m + 1))) (i :: R) rk.
Proof.
  intros ((H1 & H2) & HP & HK) Hi. set (f := fun m => set_refcnt m (n_refcnt m + 1)). set (h' := upd_node h i f).
  pose proof (HP _ _ Hi) as Hip.
  assert (HC : forall j, cnt (cedges h') j = cnt (cedges h) j).
  { intros j. pose proof (cedges_upd_cnt h i n f j Hi) as HH. fold h' in HH. unfold f in HH. cbn [cedge set_refcnt n_refcnt n_parsers] in HH.
    replace (Z.ltb 0 (n_refcnt n)) with true in HH by lia. replace (Z.ltb 0 (n_refcnt n + 1)) with true in HH by lia. lia. }
  repeat split.
  - intros j m Hj. rewrite cnt_app, cnt_cons, HC. apply live_upd in Hj as [[Hne Hj]|[<- (n0 & Hn0 & ->)]].
    + rewrite (H1 _ _ Hj), cnt_app. destruct (Nat.eq_dec i j); [congruence|lia].
    + unfold f. cbn [set_refcnt n_refcnt]. rewrite (H1 _ _ Hn0), cnt_app. destruct (Nat.eq_dec i i); [lia|congruence].
  - intros j Hj. assert (exists m, live h j m) as [m Hm].
    { apply in_app_or in Hj as [Hj|[<-|Hj]]; [|eauto|apply H2; apply in_or_app; auto]. apply H2. apply in_or_app. left. apply cnt_pos. rewrite <- HC. apply cnt_pos. auto. }
    destruct (Nat.eq_dec i j) as [<-|Hne]; [exists (f m); apply live_upd_same; auto|exists m; apply live_upd_other; auto].
  - intros j m Hj. apply live_upd in Hj as [[Hne Hj]|[<- (n0 & Hn0 & ->)]]; [eauto|]. unfold f. cbn. specialize (HP _ _ Hn0). lia.
  - intros j m p t Hj Hp Ht. apply live_upd in Hj as [[Hne Hj]|[<- (n0 & Hn0 & ->)]]; [eauto|]. unfold f in Hp. cbn in Hp. eauto.
Qed.

(** changes that touch neither the parsers nor the reference count *)
Definition quiet (f : node -> node) : Prop := forall n, n_parsers (f n) = n_parsers n /\ n_refcnt (f n) = n_refcnt n.
Lemma gi_quiet h R rk i f : quiet f -> gi h R rk -> gi (upd_node h i f) R rk.
Proof.
  intros HQ ((H1 & H2) & HP & HK). set (h' := upd_node h i f).
  assert (HC : cedges h' = cedges h).
  { unfold h', upd_node, cedges. clear - HQ. revert i. induction h as [|x h IH]; intros [|i]; cbn [upd_nth flat_map]; auto.
    - f_equal. destruct x as [n|]; auto. cbn. destruct (HQ n) as [-> ->]. reflexivity.
    - f_equal. auto. }
  assert (HL : forall j m, live h' j m -> exists m0, live h j m0 /\ n_parsers m = n_parsers m0 /\ n_refcnt m = n_refcnt m0).
  { intros j m Hj. apply live_upd in Hj as [[Hne Hj]|[<- (n0 & Hn0 & ->)]]; eauto. }
  unfold gi, inv. rewrite HC. repeat split.
  - intros j m Hj. destruct (HL _ _ Hj) as (m0 & Hm0 & _ & ->). auto.
  - intros j Hj. destruct (H2 _ Hj) as [m Hm]. destruct (Nat.eq_dec i j) as [<-|Hne]; [exists (f m); apply live_upd_same; auto|exists m; apply live_upd_other; auto].
  - intros j m Hj. destruct (HL _ _ Hj) as (m0 & Hm0 & _ & ->). eauto.
  - intros j m p t Hj Hp Ht. destruct (HL _ _ Hj) as (m0 & Hm0 & E & _). rewrite E in Hp. eauto.
Qed.
Lemma quiet_term : quiet set_term. Proof. intros n. split; reflexivity. Qed.

(** end of a step: operations that only change what is held *)
Lemma step_end h R rk k nd h1 F G rk1 h2 F2 :
  gi h R rk -> step h R rk k nd h1 F G rk1 -> gi h2 (F2 ++ G ++ R) rk1 -> List.length h2 = List.length h1 ->
  (forall i n2, live h2 i n2 -> exists n1, live h1 i n1 /\ n_parsers n2 = n_parsers n1) ->
  step h R rk k nd h2 F2 G rk1.
Proof.
  intros HG0 [S1 S2 S3 S4 S5] HG HL HN. constructor; auto.
  - lia.
  - intros i m m' Hi Hi'. destruct (HN _ _ Hi') as (m1 & Hm1 & ->). eapply S4; eauto.
  - intros K HK. destruct (S5 _ HK) as [[HK1 HK2] HK3]. split; auto. split; auto. intros i n Hi. destruct (HN _ _ Hi) as (m1 & Hm1 & ->). eauto.
Qed.
Lemma step_delete h R rk k nd h1 i F G rk1 : gi h R rk -> step h R rk k nd h1 (i :: F) G rk1 ->
  exists h2, pdagDelete (heap_fuel h1) h1 i = EOk h2 /\ step h R rk k nd h2 F G rk1 /\ del_post h1 h2.
Proof.
  intros HG0 HS. pose proof (s_gi _ _ _ _ _ _ _ _ _ HS) as (HI & HP & HK).
  destruct (pdagDelete_ok (heap_fuel h1) h1 i (F ++ G ++ R) HI) as (h2 & E & HI2 & HD).
  { unfold heap_fuel. pose proof (cntlive_le h1). lia. }
  exists h2. split; auto. split; auto. apply (step_end h R rk k nd h1 (i :: F)); auto.
  - repeat split; try apply HI2; [eapply del_post_positive; eauto|eapply del_post_ranked; eauto].
  - destruct HD. auto.
  - intros j m Hj. destruct HD as (_ & _ & _ & HD). destruct (HD _ _ Hj) as (m0 & Hm0 & HS0 & _). exists m0. split; auto. rewrite HS0. reflexivity.
Qed.
Lemma step_share h R rk k nd h1 i n F G rk1 : gi h R rk -> step h R rk k nd h1 F G rk1 -> live h1 i n ->
  step h R rk k nd (upd_node h1 i (fun m => set_refcnt m (n_refcnt m + 1))) (i :: F) G rk1.
Proof.
  intros HG0 HS Hi. apply (step_end h R rk k nd h1 F); auto.
  - apply (gi_share h1 (F ++ G ++ R) rk1 i n); auto. apply HS.
  - apply upd_nth_length.
  - intros j m Hj. apply live_upd in Hj as [[Hne Hj]|[<- (n0 & Hn0 & ->)]]; eauto.
Qed.
Lemma step_quiet h R rk k nd h1 i F G rk1 f : gi h R rk -> step h R rk k nd h1 F G rk1 -> quiet f ->
  step h R rk k nd (upd_node h1 i f) F G rk1.
Proof.
  intros HG0 HS HQ. apply (step_end h R rk k nd h1 F); auto.
  - apply gi_quiet; auto. apply HS.
  - apply upd_nth_length.
  - intros j m Hj. apply live_upd in Hj as [[Hne Hj]|[<- (n0 & Hn0 & ->)]]; eauto. exists n0. destruct (HQ n0). auto.
Qed.
(** the caller drops a reference: it is lost *)
Lemma step_lose h R rk k (nd : Prop) h1 i F G rk1 : step h R rk k nd h1 (i :: F) G rk1 -> step h R rk k False h1 F (i :: G) rk1.
Proof.
  intros [S1 S2 S3 S4 S5]. constructor; auto.
  - eapply gi_perm; [|exact S1]. intros j. cbn [app]. rewrite !cnt_cons, !cnt_app, !cnt_cons, !cnt_app. lia.
  - intros a m m' Ha Ha' x Hx. specialize (S4 _ _ _ Ha Ha' _ Hx). apply in_app_or in S4 as [|]; apply in_or_app; cbn; auto.
  - intros K HK. destruct (S5 _ HK). split; auto. tauto.
Qed.
