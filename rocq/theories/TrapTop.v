(** * TrapTop: loading a rulebase misbehaves only where it has a trap. *)
From Verif Require Import Base Parsers Engine Pdag Samp GraphSpec History TrapSpec BaseFacts EngineFacts2 HeapFacts BuildFacts BuildFacts2 BuildFacts3 FrameFacts OptTotal OptFacts LoadFacts LabelFacts TrapFacts TrapLoad.
From Coq Require Import ZifyBool ZifyNat ZifyN Permutation.

Lemma tpost_weak {A} (F G : ub -> Prop) (Q : A -> Prop) x : (forall u, F u -> G u) -> tpost F Q x -> tpost G Q x.
Proof. destruct x; cbn; auto. Qed.

Section Opt.
Variable qs : list prs -> list prs.
Hypothesis HQ : permutes qs.
Definition opt_ub (u : ub) : Prop := u = UseAfterFree \/ u = OutOfFuel \/ u = NullDeref.
Definition ot {A} (x : er A) : Prop := tpost opt_ub (fun _ => True) x.
Lemma ot_bind {A B} (x : er A) (f : A -> er B) : ot x -> (forall a, ot (f a)) -> ot (do* a := x in f a).
Proof. intros H K. eapply tpost_bind; [exact H|]. intros a _. apply K. Qed.
Lemma ot_get h i : ot (get_node h i).
Proof. unfold get_node. destruct (nth_error h i) as [[]|]; cbn; auto; left; reflexivity. Qed.
Lemma ot_fuel {A} : ot (EUb OutOfFuel : er A). Proof. right. left. reflexivity. Qed.
Lemma ot_null {A} : ot (EUb NullDeref : er A). Proof. right. right. reflexivity. Qed.
Lemma compact_ot : forall f h p, ot (optLitPathCompact f h p).
Proof.
  induction f as [|f IH]; intros h p; [apply ot_fuel|]. cbn [optLitPathCompact]. destruct (negb _); [exact I|]. apply ot_bind; [apply ot_get|]. intros n.
  destruct (_ || _)%bool; [exact I|]. destruct (n_parsers n) as [|r [|? ?]]; try exact I. destruct (negb _); [exact I|]. apply ot_bind; [apply ot_get|]. intros m. destruct (negb _); [exact I|].
  destruct (p_kind p) as [[]| |]; try apply ot_null; destruct (p_kind r) as [[]| |]; try apply ot_null; apply IH.
Qed.
Lemma component_ot : forall f h nd, ot (componentOptimize qs f h nd).
Proof.
  induction f as [|f IH]; intros h nd; [apply ot_fuel|]. rewrite componentOptimize_unfold. apply ot_bind; [apply ot_get|]. intros n. cbv zeta.
  generalize (if Nat.ltb 1 (List.length (n_parsers n)) then qs (n_parsers n) else n_parsers n). intros ps. generalize (put h nd ps). generalize (@nil prs). clear h.
  induction ps as [|p ps IHp]; intros dn h; [exact I|]. rewrite opt_go_cons. apply ot_bind; [apply compact_ot|]. intros [h1 p1]. cbv zeta. apply ot_bind; [apply IH|]. intros h2. apply IHp.
Qed.
Lemma readIDs_ot h : forall f nd, ot (componentReadIDs f h nd).
Proof.
  induction f as [|f IH]; intros nd; [apply ot_fuel|]. cbn [componentReadIDs]. apply ot_bind; [apply ot_get|]. intros n. generalize (n_parsers n). intros l.
  induction l as [|p l IHl]; [exact I|]. cbn [fold_right]. destruct (_ && _)%bool; [apply ot_null|]. apply ot_bind; [apply IH|]. intros _. exact IHl.
Qed.
Lemma all_ot : forall l h, ot (optimize_all qs h l).
Proof. induction l as [|i l IH]; intros h; [exact I|]. cbn [optimize_all]. apply ot_bind; [apply component_ot|]. intros h1. apply ot_bind; [apply readIDs_ot|]. intros _. apply IH. Qed.

Lemma optimize_trap (D : Prop) cx : msafe cx -> all_data (c_nodes cx) \/ D -> tpost (fun u => D /\ u = NullDeref) (fun cx' => msafe cx' /\ (all_data (c_nodes cx') \/ D)) (optimize qs cx).
Proof.
  intros HM HD. pose proof (optimize_safe qs HQ cx HM) as HS. destruct HM as (G & rk & HG).
  pose proof (optimize_ok qs HQ False 0%Z cx G rk HG (fun f : False => match f with end)) as HP. pose proof (all_ot (map snd (c_types cx) ++ [c_root cx]) (c_nodes cx)) as HO.
  assert (HA : all_data (c_nodes cx) -> dpost all_data (optimize_all qs (c_nodes cx) (map snd (c_types cx) ++ [c_root cx]))) by (intros H; apply optimize_all_data; auto).
  unfold optimize in *. destruct (optimize_all qs _ _) as [h|u]; cbn [ebind tpost upost epost ot] in *.
  - split; [exact HS|]. destruct HD as [HD|HD]; [left; exact (HA HD)|right; exact HD].
  - destruct HP as [P1 P2]. destruct HD as [HD|HD]; [destruct (HA HD); contradiction|]. split; [exact HD|]. destruct HO as [HO|[HO|HO]]; [contradiction|contradiction|exact HO].
Qed.
End Opt.

Section Files.
Variables (e : env) (q : list prs -> list prs) (t0 : text) (p0 : option text) (total : nat).
Hypothesis HQ : permutes q.
Notation Ln := (a_line e t0).
Notation trap := (load_trap e p0 Ln).
Definition F (u : ub) : Prop := trap u \/ (u = OutOfFuel /\ ~ fits e t0 total).
Lemma F_trap u : trap u -> F u. Proof. left. auto. Qed.

Lemma files_trap : forall k n t level cx f u, total = n + k -> source e t0 n t -> a_line_of t (L "include=" ++ u) -> names_file u f -> 2 <= level ->
  inv e p0 Ln cx -> tpost F (fun x => inv e p0 Ln (fst x)) (loadSamples e q k level cx f).
Proof.
  induction k as [|k IH]; intros n t level cx f u Ht Hs Hi Hn Hl HI; cbn [loadSamples].
  - right. split; [reflexivity|]. intros HF. specialize (HF _ _ Hs). lia.
  - destruct (files e f) as [[|c content]|] eqn:EF; try exact HI. pose proof HI as (HM & HD & HP & HV).
    change (c_version (set_pos cx f 0)) with (c_version cx). rewrite HV. destruct (text_eqb _ _) eqn:E2; [|exact HI]. cbn [N.eqb negb andb].
    change (negb (N.eqb 2 0) && negb (N.eqb 2 2))%bool with false. cbv iota.
    assert (HS : source e t0 (S n) (skipn 10 (c :: content))) by (eapply so_file; eauto).
    eapply tpost_bind; [apply (lines_trap e p0 Ln F _ k true (skipn 10 (c :: content)) F_trap)|].
    + intros line Hline. exists (S n), (skipn 10 (c :: content)). auto.
    + intros cx1 f1 u1 HI1 Hu1 Hn1. eapply (IH (S n)); eauto; lia.
    + destruct (Nat.ltb_spec (List.length (skipn 10 (c :: content))) k) as [HH|HH]; [left; exact HH|right]. right. split; [reflexivity|]. intros HF. specialize (HF _ _ HS). lia.
    + exists []. split; [reflexivity|left; reflexivity].
    + rewrite skipn_length. lia.
    + split; [exact HM|]. split; [exact HD|]. split; [exact HP|reflexivity].
    + intros [cx1 ok] H1. destruct (negb ok); [exact H1|]. destruct (Nat.eqb_spec level 1) as [HH|HH]; [lia|]. exact H1.
Qed.

Lemma top_trap isf fuel cx : msafe cx -> all_data (c_nodes cx) \/ trap NullDeref -> c_prefix cx = p0 -> c_version cx = 2%N -> List.length t0 < fuel ->
  tpost F (fun x => msafe (fst x) /\ (all_data (c_nodes (fst x)) \/ trap NullDeref)) (do* (cx, ok) := load_lines e (loadSamples e q total 2) total fuel isf cx t0 in
  if negb ok then EOk (cx, false) else do* cx := optimize q cx in EOk (cx, true)).
Proof.
  intros HM HD HP HV Hf. assert (HS : source e t0 0 t0) by constructor.
  eapply tpost_bind; [apply (lines_trap e p0 Ln F _ total isf t0 F_trap)|].
  - intros line Hline. exists 0, t0. auto.
  - intros cx1 f1 u1 HI1 Hu1 Hn1. eapply (files_trap total 0); eauto.
  - destruct (Nat.ltb_spec (List.length t0) total) as [HH|HH]; [left; exact HH|right]. right. split; [reflexivity|]. intros HF. specialize (HF _ _ HS). lia.
  - exists []. split; [reflexivity|left; reflexivity].
  - exact Hf.
  - split; [exact HM|]. split; [exact HD|]. split; [|exact HV]. unfold pinv. rewrite HP. destruct p0; [apply pa_start; reflexivity|reflexivity].
  - intros [cx1 ok] (A & B & _). cbn [fst] in *. destruct (negb ok); [cbn; auto|].
    eapply tpost_bind; [|intros cx2 H2; exact H2]. eapply tpost_weak; [|apply (optimize_trap q HQ _ cx1 A B)].
    intros u [H1 ->]. left. exact H1.
Qed.
End Files.

Lemma texts_all cx : texts_there cx <-> all_data (c_nodes cx).
Proof.
  unfold texts_there, all_data, has_data, is_lit. split; intros H i n p Hi Hp K; eapply H; eauto.
  - apply text_eqb_true. exact K.
  - rewrite K. apply text_eqb_refl.
Qed.

Lemma string_trap e q cx fuel s : permutes q -> msafe cx -> texts_there cx ->
  tpost (F e (cstr s) (c_prefix cx) fuel) (fun x => texts_there (fst x) \/ load_trap e (c_prefix cx) (a_line e (cstr s)) NullDeref) (loadString e q fuel cx s).
Proof.
  intros HQ HM HT. apply texts_all in HT. unfold loadString. eapply tpost_mono; [apply (top_trap e q (cstr s) (c_prefix cx) fuel HQ)|]; auto.
  intros [cx1 ok] [_ [H|H]]; [left; apply texts_all; exact H|right; exact H].
Qed.
Lemma file_trap e q cx fuel f : permutes q -> msafe cx -> texts_there cx ->
  tpost (fun u => (u = V1Engine /\ exists content, files e f = Some content /\ firstn 10 content <> L "version=2" ++ [chr 10]) \/ exists content, files e f = Some content /\ firstn 10 content = L "version=2" ++ [chr 10] /\ F e (skipn 10 content) (c_prefix cx) fuel u)
    (fun x => texts_there (fst x) \/ exists content, files e f = Some content /\ load_trap e (c_prefix cx) (a_line e (skipn 10 content)) NullDeref) (loadFile e q (S fuel) cx f).
Proof.
  intros HQ HM HT. unfold loadFile. cbn [loadSamples]. destruct (files e f) as [[|c content]|] eqn:EF; try (left; exact HT).
  change (c_version (set_pos cx f 0)) with (c_version cx).
  destruct (text_eqb (firstn 10 (c :: content)) version2) eqn:E2.
  - destruct (_ && _)%bool; [left; exact HT|]. cbn [negb]. apply text_eqb_true in E2. apply texts_all in HT.
    pose proof (top_trap e q (skipn 10 (c :: content)) (c_prefix cx) fuel HQ true (S (List.length (c :: content))) (set_pos (set_version (set_pos cx f 0) 2) f 1) HM (or_introl HT) eq_refl eq_refl ltac:(rewrite skipn_length; lia)) as HH.
    destruct (load_lines e (loadSamples e q fuel 2) fuel (S (List.length (c :: content))) true _ (skipn 10 (c :: content))) as [[cx1 ok]|u]; cbn [ebind] in *.
    + destruct (negb ok); [destruct HH as [_ [HH|HH]]; [left; apply texts_all; exact HH|right; eauto]|]. change (Nat.eqb 1 1) with true. cbv iota.
      destruct (optimize q cx1) as [cx2|u]; cbn [ebind tpost fst] in *; [destruct HH as [_ [HH|HH]]; [left; apply texts_all; exact HH|right; eauto]|]. right. eauto.
    + right. cbn in HH. eauto.
  - assert (HV : firstn 10 (c :: content) <> L "version=2" ++ [chr 10]).
    { intros HV. change (L "version=2" ++ [chr 10]) with version2 in HV. rewrite HV, text_eqb_refl in E2. discriminate E2. }
    cbn [negb]. destruct (N.eqb (c_version cx) 0) eqn:E0; cbn [negb andb]; [left; split; [reflexivity|eauto]|].
    destruct (N.eqb 1 (c_version cx)) eqn:E1; cbn [negb]; [left; split; [reflexivity|eauto]|]. left. exact HT.
Qed.
