(** * FieldFacts9: name-value-list. *)
From Verif Require Import Base Time Parsers BaseFacts FieldSpec FieldSpec2 SafetySpec FieldFacts FieldFacts2 FieldFacts3 FieldFacts4 IntFacts DateFacts FieldFacts6 FieldFacts7 FieldFacts8.
From Coq Require Import ZifyBool ZifyNat ZifyN.

Definition trail (k : nat) (p : text) : nat := fold_left (fun k c => if ceq c "\" then S k else 0) p k.
Lemma trail_cons k c p : trail k (c :: p) = trail (if ceq c "\" then S k else 0) p. Proof. reflexivity. Qed.
Definition over (stop : ascii -> bool) (k : nat) (v : text) : Prop := forall p c q, v = p ++ c :: q -> stop c = true -> Nat.odd (trail k p) = true.
Definition ends_at (stop : ascii -> bool) (k : nat) (v r : text) : Prop := forall c q, r = c :: q -> stop c = true /\ Nat.odd (trail k v) = false.

Lemma odd_step c k : Nat.odd (if ceq c "\" then S k else 0) = (if ceq c "\" then negb (Nat.odd k) else false).
Proof. destruct (ceq c "\"); [rewrite Nat.odd_succ, <- Nat.negb_odd; reflexivity|reflexivity]. Qed.
Lemma odd_step' c k : (if ceq c "\" then negb (Nat.odd k) else false) = Nat.odd (if ceq c "\" then S k else 0).
Proof. symmetry. rewrite odd_step. reflexivity. Qed.

Lemma over_cons stop k c v : over stop k (c :: v) <-> (stop c = true -> Nat.odd k = true) /\ over stop (if ceq c "\" then S k else 0) v.
Proof.
  split.
  - intros H. split; [intros Hc; apply (H [] c v eq_refl Hc)|]. intros p x q -> Hx. apply (H (c :: p) x q eq_refl Hx).
  - intros [H1 H2] p x q HE Hx. destruct p as [|y p]; injection HE as -> HE; [exact (H1 Hx)|]. apply (H2 p x q HE Hx).
Qed.

Lemma nv_value_split stop : forall u k, exists v r, u = v ++ r /\ nv_value stop (Nat.odd k) u = List.length v /\ over stop k v /\ ends_at stop k v r.
Proof.
  induction u as [|c u IH]; intros k; cbn [nv_value].
  - exists [], []. split; [reflexivity|]. split; [reflexivity|]. split; [intros [|] c q H; discriminate|intros c q H; discriminate].
  - destruct (negb (stop c) || Nat.odd k)%bool eqn:E.
    + rewrite odd_step'. destruct (IH (if ceq c "\" then S k else 0)) as (v & r & -> & HN & HO & HE). rewrite HN. exists (c :: v), r.
      split; [reflexivity|]. split; [reflexivity|]. split; [|exact HE]. apply over_cons. split; [|exact HO].
      intros Hc. rewrite Hc in E. exact E.
    + apply orb_false_iff in E. destruct E as [E1 E2]. apply negb_false_iff in E1. exists [], (c :: u). split; [reflexivity|]. split; [reflexivity|]. split; [intros [|] x q H; discriminate|].
      intros x q [= <- <-]. auto.
Qed.
Lemma nv_value_run stop : forall v k r, over stop k v -> ends_at stop k v r -> nv_value stop (Nat.odd k) (v ++ r) = List.length v.
Proof.
  induction v as [|c v IH]; intros k r HO HE.
  - cbn [app]. destruct r as [|c r]; [reflexivity|]. cbn [nv_value]. destruct (HE c r eq_refl) as [H1 H2]. cbn [trail fold_left] in H2. change (trail k []) with k in H2. rewrite H1, H2. reflexivity.
  - cbn [app nv_value]. apply over_cons in HO. destruct HO as [H1 H2]. destruct (negb (stop c) || Nat.odd k)%bool eqn:E.
    + rewrite odd_step'. rewrite IH; [reflexivity|exact H2|exact HE].
    + apply orb_false_iff in E. destruct E as [E1 E2]. apply negb_false_iff in E1. rewrite (H1 E1) in E2. discriminate.
Qed.

Lemma isSep_iff sep c : isSep sep c = true <-> nv_sep sep c.
Proof.
  unfold isSep, nv_sep. destruct (ceq sep NUL) eqn:E.
  - apply ceq_true in E. rewrite isspace_iff. intuition congruence.
  - apply ceq_false in E. rewrite ceq_true. intuition congruence.
Qed.
Lemma isSep_not sep c : isSep sep c = false <-> ~ nv_sep sep c.
Proof. rewrite <- isSep_iff. destruct (isSep sep c); intuition congruence. Qed.
Lemma name_mem : forall c, isValidNameChar c = mem (L "abcdefghijklmnopqrstuvwxyzABCDEFGHIJKLMNOPQRSTUVWXYZ0123456789._-") c. Proof. sweep. Qed.
Lemma name_iff c : isValidNameChar c = true <-> name_char c.
Proof. rewrite name_mem. unfold name_char. apply mem_In. Qed.
Lemma over_iff (stop : ascii -> bool) (P : ascii -> Prop) v : (forall c, stop c = true <-> P c) -> (over stop 0 v <-> runs_over P v).
Proof. intros H. unfold over, runs_over, escaped_after. split; intros HO p c q HE Hc; apply (HO p c q HE); apply H; exact Hc. Qed.
Lemma ends_iff (stop : ascii -> bool) (P : ascii -> Prop) v r : (forall c, stop c = true <-> P c) -> (ends_at stop 0 v r <-> forall c q, r = c :: q -> P c /\ ~ escaped_after v).
Proof.
  intros H. unfold ends_at, escaped_after. change (trail 0 v) with (backslashes v). split; intros HO c q HE; destruct (HO c q HE) as [H1 H2]; (split; [apply H; exact H1|]).
  - rewrite H2. discriminate.
  - apply not_true_iff_false in H2. exact H2.
Qed.

Definition nameP (ass c : ascii) : bool := if negb (ceq ass NUL) then negb (ceq c ass) else isValidNameChar c.
Definition isAss (ass c : ascii) : bool := if negb (ceq ass NUL) then ceq c ass else ceq c "=".
Lemma ass_name ass c : isAss ass c = true -> nameP ass c = false.
Proof. unfold isAss, nameP. destruct (ceq ass NUL); cbn [negb]; intros H; [apply ceq_true in H; subst; reflexivity|rewrite H; reflexivity]. Qed.
Lemma name_ok ass name a : ((ass = NUL /\ a = "="%char /\ Forall name_char name) \/ (ass <> NUL /\ a = ass /\ ~ In ass name)) <->
  isAss ass a = true /\ Forall (fun c => nameP ass c = true) name.
Proof.
  unfold isAss, nameP. destruct (ceq ass NUL) eqn:E; cbn [negb].
  - apply ceq_true in E. rewrite ceq_true. split.
    + intros [(_ & H1 & H2)|(H & _)]; [|congruence]. split; [exact H1|]. eapply Forall_impl; [|exact H2]. intros c. apply name_iff.
    + intros [H1 H2]. left. split; [exact E|]. split; [exact H1|]. eapply Forall_impl; [|exact H2]. intros c. apply name_iff.
  - apply ceq_false in E. rewrite ceq_true. split.
    + intros [(H & _)|(_ & H1 & H2)]; [congruence|]. split; [exact H1|]. apply notin_scan. exact H2.
    + intros [H1 H2]. right. split; [exact E|]. split; [exact H1|]. apply scan_notin. exact H2.
Qed.
Lemma isAss_nul ass : isAss ass NUL = false.
Proof. unfold isAss. destruct (ceq ass NUL) eqn:E; cbn [negb]; [reflexivity|]. apply ceq_false in E. apply ceq_false. congruence. Qed.

(** the value behind the assignment *)
Definition nv_val (sep : ascii) (w : text) : res (nat * text) :=
  match w with
  | q :: w' =>
      if (ceq q """" || ceq q "'")%bool then
        let k := nv_value (fun c => ceq c q) false w' in
        check (Nat.ltb k (List.length w')) ;; Ok (S (S k), firstn k w')
      else let k := nv_value (isSep sep) false w in Ok (k, firstn k w)
  | [] => Ok (0, [])
  end.
Lemma nv_stop_at stop (u : text) : nv_value stop false u < List.length u -> exists v c r, u = v ++ c :: r /\ nv_value stop false u = List.length v /\ stop c = true.
Proof.
  intros H. destruct (nv_value_split stop u 0) as (v & r & HU & HN & _ & HE). change (Nat.odd 0) with false in HN. rewrite HN in *. destruct r as [|c r].
  - rewrite HU, app_nil_r in H. lia.
  - exists v, c, r. split; [exact HU|]. split; [reflexivity|]. apply (HE c r eq_refl).
Qed.
Lemma nv_le stop (u : text) : nv_value stop false u <= List.length u.
Proof. destruct (nv_value_split stop u 0) as (v & r & HU & HN & _ & HE). change (Nat.odd 0) with false in HN. rewrite HN, HU, app_length. lia. Qed.

Lemma pnv_unfold sep ass u : parseNameValue sep ass u =
  (let i := scan (nameP ass) u in
   check (negb (Nat.eqb i 0)) ;;
   let* c := rd u i in
   check (isAss ass c) ;;
   let* (k, v) := nv_val sep (skipn (S i) u) in
   Ok (S i + k, firstn i u, v)).
Proof.
  unfold parseNameValue. change (fun c => if negb (ceq ass NUL) then negb (ceq c ass) else isValidNameChar c) with (nameP ass). cbv zeta.
  destruct (negb (Nat.eqb (scan (nameP ass) u) 0)); [|reflexivity].
  set (i := scan (nameP ass) u). destruct (rd u i) as [c| |] eqn:Er; cbn [bind]; try reflexivity.
  change (if negb (ceq ass NUL) then ceq c ass else ceq c "=") with (isAss ass c). destruct (isAss ass c) eqn:Ea; [|reflexivity].
  assert (Hi : i < List.length u).
  { destruct (Nat.lt_trichotomy i (List.length u)) as [|[H|H]]; [assumption| |].
    - exfalso. unfold rd in Er. replace (nth_error u i) with (@None ascii) in Er by (symmetry; apply nth_error_None; lia). rewrite H, Nat.eqb_refl in Er. injection Er as <-. rewrite isAss_nul in Ea. discriminate.
    - pose proof (scan_le (nameP ass) u). unfold i in H. lia. }
  assert (HUs : u = firstn (S i) u ++ skipn (S i) u) by (symmetry; apply firstn_skipn).
  assert (HLs : List.length (firstn (S i) u) = S i) by (rewrite firstn_length; lia).
  set (w := skipn (S i) u) in *. set (hd := firstn (S i) u) in *.
  assert (Hrd : forall k, rd u (S i + k) = rd w k) by (intros k; rewrite HUs at 1; rewrite <- HLs; apply rd_at).
  assert (Hsk : forall k, skipn (S i + k) u = skipn k w) by (intros k; rewrite HUs at 1; rewrite <- HLs; apply skipn_at).
  assert (Hlu : List.length u = S i + List.length w) by (rewrite HUs at 1; rewrite app_length, HLs; reflexivity).
  rewrite Hlu.
  replace (rd u (S i)) with (rd w 0) by (rewrite <- Hrd; f_equal; lia).
  destruct w as [|q w'] eqn:Hw.
  - cbn [rd nth_error List.length Nat.eqb bind]. rewrite Nat.add_0_r, Nat.ltb_irrefl. cbn [andb negb].
    replace (skipn (S i) u) with (@nil ascii) by (symmetry; apply skipn_all2; cbn [List.length] in Hlu; lia). cbn [nv_value]. rewrite Nat.add_0_r, Nat.ltb_irrefl. cbn [bind].
    rewrite ceq_refl. cbn [negb bind nv_val]. unfold sub. replace (S i - S i - 0) with 0 by lia. rewrite Nat.add_0_r. reflexivity.
  - cbn [rd nth_error bind]. replace (Nat.ltb (S i) (S i + List.length (q :: w'))) with true by (symmetry; apply Nat.ltb_lt; cbn; lia). cbn [andb].
    cbn [nv_val]. destruct (ceq q """" || ceq q "'")%bool eqn:Eq.
    + replace (skipn (S (S i)) u) with w' by (replace (S (S i)) with (S i + 1) by lia; rewrite Hsk; reflexivity).
      set (k := nv_value (fun c => ceq c q) false w'). pose proof (nv_le (fun c => ceq c q) w') as Hle. fold k in Hle.
      assert (Hqn : ceq q NUL = false) by (apply orb_true_iff in Eq; destruct Eq as [Eq|Eq]; apply ceq_true in Eq; subst q; reflexivity). rewrite Hqn. cbn [negb].
      replace (S (S i) + k) with (S i + (S k)) by lia.
      destruct (Nat.ltb_spec k (List.length w')) as [Hlt|Hge].
      * replace (Nat.ltb (S i + S k) (S i + List.length (q :: w'))) with true by (symmetry; apply Nat.ltb_lt; cbn [List.length]; lia).
        destruct (nv_stop_at (fun c => ceq c q) w' Hlt) as (v & x & r & HW & HN & Hx). fold k in HN. rewrite Hrd. cbn [rd nth_error].
        assert (HR : rd (q :: w') (S k) = Ok x) by (change (rd (q :: w') (S k)) with (rd w' k); rewrite HW, HN; apply rd_app1; reflexivity).
        rewrite HR. cbn [bind]. rewrite Hx. cbn [bind]. f_equal. f_equal; [f_equal; lia|].
        unfold sub. replace (S (S i)) with (S i + 1) by lia. rewrite Hsk. cbn [skipn]. f_equal. lia.
      * replace (Nat.ltb (S i + S k) (S i + List.length (q :: w'))) with false by (symmetry; apply Nat.ltb_ge; cbn [List.length]; lia). reflexivity.
    + replace (skipn (S i) u) with (q :: w') by (rewrite <- Hw; reflexivity).
      set (k := nv_value (isSep sep) false (q :: w')). pose proof (nv_le (isSep sep) (q :: w')) as Hle. fold k in Hle.
      assert (HA : (let* atq := (if Nat.ltb (S i + k) (S i + List.length (q :: w')) then let* c := rd u (S i + k) in Ok (ceq c NUL) else Ok false) in
          (if atq then Ok (S (S i + k)) else if negb (ceq NUL NUL) then Bad 0 else Ok (S i + k))) = Ok (S i + k)).
      { destruct (Nat.ltb_spec (S i + k) (S i + List.length (q :: w'))) as [Hlt|Hge].
        - rewrite Hrd. destruct (nv_stop_at (isSep sep) (q :: w')) as (v & x & r & HW & HN & Hx); [fold k; lia|]. fold k in HN.
          replace (rd (q :: w') k) with (Ok x) by (rewrite HW, HN; symmetry; apply rd_app1; reflexivity). cbn [bind].
          replace (ceq x NUL) with false; [reflexivity|]. symmetry. apply ceq_false. intros ->. apply isSep_iff in Hx. destruct Hx as [[_ Hx]|[H1 H2]]; [|congruence]. apply isspace_iff in Hx. discriminate.
        - reflexivity. }
      assert (GA : forall (x : res bool) (g : bool -> res nat) (h : nat -> res (nat * text * text)) y, bind x g = Ok y -> bind x (fun a => bind (g a) h) = h y).
      { intros [a| |] g h y; cbn [bind]; intros H; try discriminate. rewrite H. reflexivity. }
      etransitivity; [eapply GA; exact HA|]. cbn [bind]. unfold sub.
      replace (S i + k - S i - 0) with k by lia. replace (skipn (S i) u) with (q :: w') by (rewrite <- Hw; reflexivity). reflexivity.
Qed.

Lemma nv_val_spec sep w k v : nv_val sep w = Ok (k, v) <->
  exists vt rest, w = vt ++ rest /\ k = List.length vt /\
   ((exists q, (q = """"%char \/ q = "'"%char) /\ vt = [q] ++ v ++ [q] /\ runs_over (eq q) v /\ ~ escaped_after v) \/
     (vt = v /\ (forall c r, vt ++ rest = c :: r -> c <> """"%char /\ c <> "'"%char) /\ runs_over (nv_sep sep) v /\
      forall c r, rest = c :: r -> nv_sep sep c /\ ~ escaped_after v)).
Proof.
  assert (HQ : forall q c, ceq c q = true <-> q = c) by (intros q c; rewrite ceq_true; split; congruence).
  assert (HU : w <> [] \/ w = []) by (destruct w; [right; reflexivity|left; discriminate]).
  destruct w as [|q w]; cbn [nv_val].
  - split.
    + intros [= <- <-]. exists [], []. split; [reflexivity|]. split; [reflexivity|]. right. split; [reflexivity|]. split; [intros; discriminate|]. split; [intros [|] c r H; discriminate|intros; discriminate].
    + intros (vt & rest & HW & -> & H). destruct vt; [|discriminate]. destruct H as [(q & _ & H & _)|(<- & _)]; [discriminate|reflexivity].
  - destruct (ceq q """" || ceq q "'")%bool eqn:Eq.
    + assert (HqP : q = """"%char \/ q = "'"%char) by (apply orb_true_iff in Eq; rewrite !ceq_true in Eq; exact Eq).
      destruct (nv_value_split (fun c => ceq c q) w 0) as (v0 & r0 & HW & HN & HO & HE). change (Nat.odd 0) with false in HN. rewrite HN. split.
      * destruct (Nat.ltb_spec (List.length v0) (List.length w)) as [Hl|]; [|discriminate]. rewrite HW at 1. rewrite firstn_app_exact. intros [= <- <-].
        destruct r0 as [|c r0]; [rewrite HW, app_nil_r in Hl; lia|]. pose proof (proj1 (ends_iff _ _ v0 _ (HQ q)) HE c r0 eq_refl) as [<- HX].
        exists ([q] ++ v0 ++ [q]), r0. split; [rewrite HW; cbn [app]; rewrite <- app_assoc; reflexivity|]. split; [rewrite !app_length; cbn; lia|]. left. exists q. split; [exact HqP|]. split; [reflexivity|]. split; [|exact HX]. apply (over_iff _ _ v0 (HQ q)). exact HO.
      * intros (vt & rest & HW2 & -> & [(q2 & Hq2 & -> & HO2 & HX)|(-> & HX & _)]).
        2: { exfalso. destruct (HX q w (eq_sym HW2)). tauto. }
        injection HW2 as <- HW2. rewrite <- app_assoc in HW2.
        assert (HN2 : nv_value (fun c => ceq c q) (Nat.odd 0) (v ++ [q] ++ rest) = List.length v).
        { apply nv_value_run; [apply (over_iff _ _ v (HQ q)); exact HO2|]. apply (ends_iff _ _ v _ (HQ q)). intros c r [= <- _]. auto. }
        rewrite <- HW2 in HN2. change (Nat.odd 0) with false in HN2. assert (HLv : List.length v0 = List.length v) by congruence.
        rewrite HLv. destruct (Nat.ltb_spec (List.length v) (List.length w)) as [_|Hl]; [|rewrite HW2, !app_length in Hl; cbn in Hl; lia].
        rewrite HW2, firstn_app_exact. rewrite !app_length. cbn [List.length]. f_equal. f_equal. lia.
    + apply orb_false_iff in Eq. rewrite !ceq_false in Eq.
      destruct (nv_value_split (isSep sep) (q :: w) 0) as (v0 & r0 & HW & HN & HO & HE). change (Nat.odd 0) with false in HN.
      replace (nv_value (isSep sep) false (q :: w)) with (List.length v0) by (symmetry; exact HN). split.
      * rewrite HW, firstn_app_exact. intros [= <- <-]. exists v0, r0. split; [reflexivity|]. split; [reflexivity|]. right. split; [reflexivity|].
        split; [intros c r HH; rewrite <- HW in HH; injection HH as <- _; exact Eq|]. split; [apply (over_iff _ _ v0 (isSep_iff sep)); exact HO|]. apply (ends_iff _ _ v0 _ (isSep_iff sep)). exact HE.
      * intros (vt & rest & HW2 & -> & [(q2 & Hq2 & -> & _)|(-> & HX & HO2 & HE2)]).
        { exfalso. injection HW2 as -> _. tauto. }
        assert (HN2 : nv_value (isSep sep) (Nat.odd 0) (v ++ rest) = List.length v).
        { apply nv_value_run; [apply (over_iff _ _ v (isSep_iff sep)); exact HO2|]. apply (ends_iff _ _ v _ (isSep_iff sep)). exact HE2. }
        rewrite <- HW2 in HN2. change (Nat.odd 0) with false in HN2. assert (HLv : List.length v0 = List.length v) by (etransitivity; [symmetry; exact HN|exact HN2]).
        rewrite HLv, HW2, firstn_app_exact. reflexivity.
Qed.

Lemma nv_val_noub sep w x : nv_val sep w <> Ub x.
Proof. destruct w as [|q w]; cbn [nv_val]; [discriminate|]. destruct (_ || _)%bool; [|discriminate]. cbv zeta. destruct (Nat.ltb _ _); discriminate. Qed.

Lemma pair_spec sep ass u k name v : parseNameValue sep ass u = Ok (k, name, v) <->
  exists pre rest, u = pre ++ rest /\ k = List.length pre /\ nv_pair_at sep ass u (name, v) rest.
Proof.
  rewrite pnv_unfold. cbv zeta. destruct (run_split (nameP ass) u) as (nm & u1 & HU & Hnm & Hu1 & Hs). rewrite Hs.
  assert (HF : firstn (List.length nm) u = nm) by (rewrite HU; apply firstn_app_exact). rewrite HF.
  assert (HN : forall name a w, isAss ass a = true -> Forall (fun c => nameP ass c = true) name -> u = name ++ [a] ++ w -> name = nm /\ u1 = a :: w).
  { intros nme a w Ha Hn HX. assert (HSl : List.length nm = List.length nme).
    { rewrite <- Hs, HX. apply scan_run; [exact Hn|]. intros c r [= <- _]. apply ass_name. exact Ha. }
    rewrite HU in HX. apply app_len_inj in HX; [|exact HSl]. destruct HX; auto. }
  split.
  - destruct (Nat.eqb_spec (List.length nm) 0) as [|Hne]; [discriminate|]. cbn [negb]. intros H. apply bind_ok in H. destruct H as (a & Ha & H).
    destruct (isAss ass a) eqn:Ea; [|discriminate]. apply bind_ok in H. destruct H as ([k' v'] & Hv & H). injection H as <- <- <-.
    destruct u1 as [|a' u1].
    { exfalso. rewrite HU, app_nil_r in Ha. unfold rd in Ha. replace (nth_error nm (List.length nm)) with (@None ascii) in Ha by (symmetry; apply nth_error_None; lia). rewrite Nat.eqb_refl in Ha. injection Ha as <-. rewrite isAss_nul in Ea. discriminate. }
    rewrite HU in Ha. rewrite rd_app1 in Ha by reflexivity. injection Ha as ->.
    assert (Hsk : skipn (S (List.length nm)) u = u1) by (rewrite HU; replace (S (List.length nm)) with (List.length nm + 1) by lia; rewrite skipn_at; reflexivity).
    rewrite Hsk in Hv. apply nv_val_spec in Hv. destruct Hv as (vt & rest & HW & -> & HV).
    exists (nm ++ [a] ++ vt), rest. split; [rewrite HU, HW, <- !app_assoc; reflexivity|]. split; [rewrite !app_length; cbn; lia|].
    exists a, vt. split; [rewrite HU, HW; reflexivity|]. split; [intros ->; cbn in Hne; lia|]. split; [apply name_ok; split; assumption|exact HV].
  - intros (pre & rest & HP & -> & (a & vt & HX & Hne & Hok & HV)). apply name_ok in Hok. destruct Hok as [Ha Hn].
    destruct (HN name a (vt ++ rest) Ha Hn HX) as [-> Hu]. subst u1.
    destruct (Nat.eqb_spec (List.length nm) 0) as [H0|_]; [destruct nm; [congruence|discriminate]|]. cbn [negb].
    replace (rd u (List.length nm)) with (Ok a) by (rewrite HX; symmetry; apply rd_app1; reflexivity). cbn [bind]. rewrite Ha.
    replace (skipn (S (List.length nm)) u) with (vt ++ rest) by (rewrite HX; replace (S (List.length nm)) with (List.length nm + 1) by lia; rewrite skipn_at; reflexivity).
    assert (HVS : nv_val sep (vt ++ rest) = Ok (List.length vt, v)) by (apply nv_val_spec; exists vt, rest; auto).
    rewrite HVS. cbn [bind]. f_equal. f_equal. f_equal.
    rewrite HP in HX. apply (f_equal (@List.length _)) in HX. rewrite !app_length in HX. cbn [List.length] in HX. lia.
Qed.
Lemma pair_noub sep ass u x : parseNameValue sep ass u <> Ub x.
Proof.
  rewrite pnv_unfold. cbv zeta. destruct (negb _); [|discriminate]. pose proof (scan_le (nameP ass) u) as Hle.
  unfold rd. destruct (nth_error u _) as [c|] eqn:En.
  2: { apply nth_error_None in En. replace (Nat.eqb (scan (nameP ass) u) (List.length u)) with true by (symmetry; apply Nat.eqb_eq; lia). cbn [bind]. rewrite isAss_nul. discriminate. }
  cbn [bind]. destruct (isAss ass c); [|discriminate]. destruct (nv_val sep _) as [[k v]| |y] eqn:E; cbn [bind]; try discriminate. exfalso. exact (nv_val_noub _ _ _ E).
Qed.
Lemma pair_unique sep ass u p r p' r' : nv_pair_at sep ass u p r -> nv_pair_at sep ass u p' r' -> p = p' /\ r = r'.
Proof.
  destruct p as [n v], p' as [n' v']. intros H H'.
  assert (G : forall n v r, nv_pair_at sep ass u (n, v) r -> exists pre, u = pre ++ r).
  { intros n0 v0 r0 (a & vt & -> & _). exists (n0 ++ [a] ++ vt). rewrite <- !app_assoc. reflexivity. }
  destruct (G _ _ _ H) as [pre E], (G _ _ _ H') as [pre' E'].
  assert (E1 : parseNameValue sep ass u = Ok (List.length pre, n, v)) by (apply pair_spec; eauto).
  assert (E2 : parseNameValue sep ass u = Ok (List.length pre', n', v')) by (apply pair_spec; eauto).
  rewrite E1 in E2. injection E2 as HL -> ->. split; [reflexivity|]. rewrite E in E'. apply app_len_inj in E'; tauto.
Qed.
Lemma pair_pos sep ass u p r : nv_pair_at sep ass u p r -> exists pre, u = pre ++ r /\ 0 < List.length pre.
Proof. destruct p as [n v]. intros (a & vt & -> & _). exists (n ++ [a] ++ vt). split; [rewrite <- !app_assoc; reflexivity|]. rewrite !app_length. cbn. lia. Qed.

Definition nv_store (o : fields) (l : list (text * text)) : fields := fold_left (fun o m => obj_add o (fst m) (snd m)) (map nv_member l) o.
Lemma nv_g_suffix sep ass u l post : nv_g sep ass u l post -> exists pre, u = pre ++ post.
Proof.
  induction 1 as [u H|u p c r H Hc|u p s r l post H Hs Hsr Hr HG [pre IH]].
  - exists []. reflexivity.
  - destruct (pair_pos _ _ _ _ _ H) as (pre & E & _). eauto.
  - destruct (pair_pos _ _ _ _ _ H) as (q & E & _). exists (q ++ s ++ pre). rewrite E, IH, <- !app_assoc. reflexivity.
Qed.
Lemma nv_loop_sound sep ass : forall fuel u o, List.length u < fuel ->
  exists k l post, nv_loop fuel sep ass u o = Ok (k, nv_store o l) /\ nv_g sep ass u l post /\ k + List.length post = List.length u.
Proof.
  induction fuel as [|fuel IH]; intros u o Hf; [lia|]. cbn [nv_loop].
  destruct (parseNameValue sep ass u) as [[[k name] v]|kb|x] eqn:E.
  3: { exfalso. exact (pair_noub _ _ _ _ E). }
  2: { assert (HB : forall p r, ~ nv_pair_at sep ass u p r).
       { intros [n v] r H. destruct (pair_pos _ _ _ _ _ H) as (pre & EE & _). assert (EX : parseNameValue sep ass u = Ok (List.length pre, n, v)) by (apply pair_spec; eauto). congruence. }
       exists 0, [], u. split; [destruct u; reflexivity|]. split; [constructor; exact HB|reflexivity]. }
  apply pair_spec in E. destruct E as (pre & rest & HU & -> & HP).
  assert (Hpp : 0 < List.length pre) by (destruct (pair_pos _ _ _ _ _ HP) as (q & Eq & Hq); rewrite HU in Eq; apply app_inv_tail in Eq; subst q; exact Hq).
  assert (Hun : u <> []) by (rewrite HU; destruct pre; [cbn in Hpp; lia|discriminate]).
  assert (Hsk : skipn (List.length pre) u = rest) by (rewrite HU; apply skipn_app_exact). rewrite Hsk.
  assert (GM : forall A (x y : A), match u with [] => x | _ :: _ => y end = y) by (intros A x y; destruct u; [congruence|reflexivity]).
  rewrite GM. clear GM. cbv zeta. change (obj_add o (cstr name) (JStr v)) with (nv_store o [(name, v)]).
  destruct rest as [|c rest].
  - cbn [scan skipn]. destruct (IH [] (nv_store o [(name, v)])) as (k & l & post & HL & HG & HK); [rewrite HU, app_nil_r in Hf; cbn; lia|].
    rewrite HL. cbn [bind]. exists (List.length pre + 0 + k), ((name, v) :: l), post. split; [reflexivity|]. split.
    + eapply (nv_more sep ass u (name, v) [] [] l post); [exact HP|constructor|reflexivity|intros; discriminate|exact HG].
    + rewrite HU, app_nil_r. cbn in HK. lia.
  - destruct (isSep sep c) eqn:Es; cbn [negb].
    2: { exists (List.length pre), [(name, v)], (c :: rest). split; [reflexivity|]. split; [apply nv_last; [exact HP|apply isSep_not; exact Es]|]. rewrite HU, app_length. reflexivity. }
    destruct (run_split (isSep sep) (c :: rest)) as (s & r & HR & Hs & Hr & Hsc). rewrite Hsc.
    replace (skipn (List.length s) (c :: rest)) with r by (rewrite HR; symmetry; apply skipn_app_exact).
    destruct (IH r (nv_store o [(name, v)])) as (k & l & post & HL & HG & HK); [rewrite HU, HR, !app_length in Hf; lia|].
    rewrite HL. cbn [bind]. exists (List.length pre + List.length s + k), ((name, v) :: l), post. split; [reflexivity|]. split.
    + eapply nv_more; [rewrite <- HR; exact HP| | | |exact HG].
      * eapply Forall_impl; [|exact Hs]. intros z. apply isSep_iff.
      * intros ->. cbn [app] in HR. specialize (Hr c rest (eq_sym HR)). congruence.
      * intros z q Hz. apply isSep_not. eapply Hr. exact Hz.
    + rewrite HU, HR, !app_length. lia.
Qed.
Lemma nv_g_unique sep ass u l post l' post' : nv_g sep ass u l post -> nv_g sep ass u l' post' -> l = l' /\ post = post'.
Proof.
  intros H. revert l' post'. induction H as [u H|u p c r H Hc|u p s r l post H Hs Hsr Hr HG IH]; intros l' post' H'.
  - inversion H' as [? Hx|? p0 c0 r0 H0 Hc0|? p0 s0 r0 l0 post0 H0 Hs0 Hsr0 Hr0 HG0]; subst; [auto|exfalso; exact (H _ _ H0)|exfalso; exact (H _ _ H0)].
  - inversion H' as [? Hx|? p0 c0 r0 H0 Hc0|? p0 s0 r0 l0 post0 H0 Hs0 Hsr0 Hr0 HG0]; subst.
    + exfalso. exact (Hx _ _ H).
    + destruct (pair_unique _ _ _ _ _ _ _ H H0) as [-> E]. rewrite E. auto.
    + exfalso. destruct (pair_unique _ _ _ _ _ _ _ H H0) as [-> E]. destruct s0 as [|z s0]; [rewrite (Hsr0 eq_refl) in E; discriminate|]. injection E as -> _. apply Forall_inv in Hs0. contradiction.
  - inversion H' as [? Hx|? p0 c0 r0 H0 Hc0|? p0 s0 r0 l0 post0 H0 Hs0 Hsr0 Hr0 HG0]; subst.
    + exfalso. exact (Hx _ _ H).
    + exfalso. destruct (pair_unique _ _ _ _ _ _ _ H H0) as [-> E]. destruct s as [|z s]; [rewrite (Hsr eq_refl) in E; discriminate|]. injection E as -> _. apply Forall_inv in Hs. contradiction.
    + destruct (pair_unique _ _ _ _ _ _ _ H H0) as [-> E].
      assert (HSl : List.length s = List.length s0).
      { rewrite <- (scan_run (isSep sep) s r), <- (scan_run (isSep sep) s0 r0); [rewrite E; reflexivity| | | |].
        - eapply Forall_impl; [|exact Hs0]. intros z. apply isSep_iff.
        - intros z q Hz. apply isSep_not. eapply Hr0. exact Hz.
        - eapply Forall_impl; [|exact Hs]. intros z. apply isSep_iff.
        - intros z q Hz. apply isSep_not. eapply Hr. exact Hz. }
      apply app_len_inj in E; [|exact HSl]. destruct E as [-> ->]. destruct (IH _ _ HG0) as [-> ->]. auto.
Qed.
Lemma nvlist_exact sep ass want t n v : parseNVList sep ass want t = Ok (n, v) <->
  exists l pre post, nv_g sep ass t l post /\ t = pre ++ post /\ n = List.length pre /\ v = if want then stored_in_order (map nv_member l) else JNull.
Proof.
  unfold parseNVList. destruct (nv_loop_sound sep ass (S (List.length t)) t []) as (k & l & post & HL & HG & HK); [lia|]. rewrite HL. cbn [bind].
  destruct (nv_g_suffix _ _ _ _ _ HG) as [pre HP].
  assert (Hk : k = List.length pre) by (rewrite HP, app_length in HK; lia).
  assert (HR : (if negb want then Ok (k, JNull) else Ok (k, JObj (nv_store [] l))) = Ok (k, if want then stored_in_order (map nv_member l) else JNull)) by (destruct want; reflexivity).
  rewrite HR. split.
  - intros [= <- <-]. exists l, pre, post. auto.
  - intros (l' & pre' & post' & HG' & HP' & -> & ->). destruct (nv_g_unique _ _ _ _ _ _ _ HG HG') as [-> ->]. rewrite HP in HP'. apply app_inv_tail in HP'. subst pre'. rewrite Hk. reflexivity.
Qed.
Lemma nvlist_total sep ass want t : exists n v, parseNVList sep ass want t = Ok (n, v).
Proof.
  unfold parseNVList. destruct (nv_loop_sound sep ass (S (List.length t)) t []) as (k & l & post & HL & HG & HK); [lia|]. rewrite HL. cbn [bind]. destruct want; cbn; eauto.
Qed.
