(** * OptTotal: optimizing a graph whose literals are all complete does not fail. *)
From Verif Require Import Base Parsers Engine Pdag Samp GraphSpec RuleSpec History BuiltSpec BaseFacts EngineFacts2 HeapFacts BuildFacts BuildFacts2 FrameFacts OptFacts LoadFacts.
From Coq Require Import ZifyBool ZifyNat ZifyN Permutation.

Definition has_data (p : prs) : Prop := is_lit p = true -> exists a, p_kind p = KSimple (MLiteral a).
Definition all_data (h : list (option node)) : Prop := forall i n p, live h i n -> In p (n_parsers n) -> has_data p.
Definition dpost {A} (Q : A -> Prop) (x : er A) : Prop := match x with EOk a => Q a | EUb u => u = UseAfterFree \/ u = OutOfFuel end.
Lemma dpost_bind {A B} (P : A -> Prop) (Q : B -> Prop) x (f : A -> er B) : dpost P x -> (forall a, P a -> dpost Q (f a)) -> dpost Q (do* a := x in f a).
Proof. destruct x; cbn; auto. Qed.
Lemma get_data h i : dpost (fun n => live h i n) (get_node h i).
Proof. destruct (get_node h i) as [n|u] eqn:E; [apply get_node_live in E; exact E|]. unfold get_node in E. destruct (nth_error h i) as [[]|]; try discriminate; injection E as <-; left; reflexivity. Qed.
Lemma free_data h i : all_data h -> all_data (free_nth h i).
Proof. intros H j n p Hj Hp. apply live_free in Hj as [_ Hj]. eapply H; eauto. Qed.
Lemma put_data h nd ps : all_data h -> Forall has_data ps -> all_data (upd_node h nd (fun n => set_parsers n ps)).
Proof.
  intros H HP j n p Hj Hp. apply live_upd in Hj as [[_ Hj]|[<- (n0 & Hn0 & ->)]]; [eapply H; eauto|]. rewrite Forall_forall in HP. apply HP. exact Hp.
Qed.
Lemma compact_data : forall f h p, all_data h -> has_data p -> dpost (fun r => all_data (fst r) /\ has_data (snd r)) (optLitPathCompact f h p).
Proof.
  induction f as [|f IH]; intros h p H Hp; [right; reflexivity|]. cbn [optLitPathCompact].
  destruct (is_lit p) eqn:E1; [|cbn; split; auto]. destruct (unnamed p); [|cbn; split; auto]. cbn [andb negb].
  eapply dpost_bind; [apply get_data|]. intros n Hn. destruct (_ || _)%bool; [cbn; auto|].
  destruct (n_parsers n) as [|q [|q2 r]] eqn:EP; try (cbn; auto; fail).
  destruct (is_lit q) eqn:E2; [|cbn; split; auto]. destruct (unnamed q); [|cbn; split; auto]. cbn [andb negb].
  eapply dpost_bind; [apply get_data|]. intros m Hm. destruct (negb _); [cbn; auto|].
  assert (Hq : has_data q) by (eapply H; [exact Hn|rewrite EP; left; reflexivity]).
  destruct (Hp E1) as [a Ea]. destruct (Hq E2) as [b Eb]. rewrite Ea, Eb. apply IH; [apply free_data; auto|]. intros _. cbn. eauto.
Qed.
Section QS.
Variable qs : list prs -> list prs.
Hypothesis HQ : permutes qs.
Lemma sort_data n : Forall has_data (n_parsers n) -> Forall has_data (if Nat.ltb 1 (List.length (n_parsers n)) then qs (n_parsers n) else n_parsers n).
Proof. intros H. destruct (Nat.ltb _ _); auto. eapply Permutation_Forall; [apply Permutation_sym; apply HQ|]. auto. Qed.
Lemma component_data : forall f h nd, all_data h -> dpost all_data (componentOptimize qs f h nd).
Proof.
  induction f as [|f IH]; intros h nd H; [right; reflexivity|]. rewrite componentOptimize_unfold. eapply dpost_bind; [apply get_data|]. intros n Hn.
  assert (HP : Forall has_data (if Nat.ltb 1 (List.length (n_parsers n)) then qs (n_parsers n) else n_parsers n)).
  { apply sort_data. apply Forall_forall. intros p Hp. eapply H; eauto. }
  cbv zeta. revert HP. generalize (if Nat.ltb 1 (List.length (n_parsers n)) then qs (n_parsers n) else n_parsers n). intros ps HP.
  assert (HD : Forall has_data []) by constructor. assert (H1 : all_data (put h nd ps)) by (apply put_data; auto). revert HD H1. generalize (put h nd ps). generalize (@nil prs).
  clear H Hn h. induction ps as [|p ps IHp]; intros dn h HD H; [exact H|]. inversion HP as [|? ? Hp HP']; subst. rewrite opt_go_cons.
  eapply dpost_bind; [apply compact_data; auto|]. intros [h1 p1] [A B]. cbn in A, B. cbv zeta.
  eapply dpost_bind; [apply IH; apply put_data; [auto|apply Forall_app; split; auto]|]. intros h2 H2. apply IHp; auto. apply Forall_app. split; auto.
Qed.
Lemma readIDs_data h : all_data h -> forall f nd, dpost (fun _ => True) (componentReadIDs f h nd).
Proof.
  intros H. induction f as [|f IH]; intros nd; [right; reflexivity|]. cbn [componentReadIDs]. eapply dpost_bind; [apply get_data|]. intros n Hn.
  assert (HP : Forall has_data (n_parsers n)) by (apply Forall_forall; intros p Hp; eapply H; eauto). clear Hn. revert HP. generalize (n_parsers n). intros l HP.
  induction HP as [|p l Hp HP IHl]; [exact I|]. cbn [fold_right].
  assert (E : (is_lit p && match p_kind p with KSimple (MNoData _) => true | _ => false end)%bool = false).
  { destruct (is_lit p) eqn:EL; [|reflexivity]. destruct (Hp EL) as [a ->]. reflexivity. }
  rewrite E. eapply dpost_bind; [apply IH|]. intros _ _. exact IHl.
Qed.
Lemma optimize_all_data : forall l h, all_data h -> dpost all_data (optimize_all qs h l).
Proof. induction l as [|i l IH]; intros h H; [exact H|]. cbn [optimize_all]. eapply dpost_bind; [apply component_data; auto|]. intros h1 H1. eapply dpost_bind; [apply readIDs_data; auto|]. auto. Qed.
Lemma optimize_total cx : msafe cx -> all_data (c_nodes cx) -> exists cx', optimize qs cx = EOk cx'.
Proof.
  intros (G & rk & HG) HD. pose proof (optimize_ok qs HQ False 0%Z cx G rk HG (fun f : False => match f with end)) as HP.
  destruct (optimize qs cx) as [cx'|u] eqn:E; [eauto|]. unfold optimize in E. pose proof (optimize_all_data (map snd (c_types cx) ++ [c_root cx]) _ HD) as HA.
  destruct (optimize_all qs _ _) as [h|u']; [discriminate|]. cbn in E, HA, HP. injection E as ->. destruct HP. tauto.
Qed.
End QS.
