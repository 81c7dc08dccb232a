(** * LoadSim: loading into contexts with the same rules gives the same rules. *)
From Verif Require Import Base Parsers Engine Pdag Samp GraphSpec RuleSpec BuiltSpec LineSpec SimSpec LoadSpec BaseFacts EngineFacts2 HeapFacts FrameFacts SimFacts LineFacts LoadText.
From Coq Require Import ZifyBool ZifyNat ZifyN.

Definition lsim (x y : ctx * bool) : Prop := same_load (fst x) (fst y) /\ snd x = snd y.
Lemma outcome_rsim x y : rsim lsim x y <-> same_outcome x y.
Proof. destruct x as [[c ok]|], y as [[c' ok']|]; cbn; unfold lsim; cbn; tauto. Qed.
Lemma same_load_refl c : same_load c c. Proof. split; [split; [apply same_graph_refl|reflexivity]|auto]. Qed.
Lemma same_load_trans a b c : same_load a b -> same_load b c -> same_load a c.
Proof. intros ((A1 & A2) & A3 & A4 & A5) ((B1 & B2) & B3 & B4 & B5). split; [split; [eapply same_graph_trans; eauto|congruence]|]. split; [congruence|]. split; congruence. Qed.
Lemma same_load_sym a b : same_load a b -> same_load b a.
Proof. intros ((A1 & A2) & A3 & A4 & A5). split; [split; [apply same_graph_sym; auto|congruence]|]. auto. Qed.
Lemma same_load_pos c c' f n f' n' : same_load c c' -> same_load (set_pos c f n) (set_pos c' f' n').
Proof. intros H. exact H. Qed.
Lemma same_load_nodes c c' d d' : same_load c c' -> d = set_nodes c (c_nodes d) -> d' = set_nodes c' (c_nodes d') -> same_graph d d' -> same_load d d'.
Proof. intros ((A1 & A2) & A3 & A4 & A5) E E' H. split; [split; auto; rewrite E, E'; auto|]. rewrite E, E'. auto. Qed.

Section LS.
Variable e : env.

Lemma addSamp_load c c' r d tags : same_load c c' -> rsim same_load (addSampToTree e c r d tags) (addSampToTree e c' r d tags).
Proof.
  intros H. pose proof (addSamp_sim e c c' r d tags (proj1 (proj1 H))) as HS. pose proof (addSamp_nodes e c r d tags) as N1. pose proof (addSamp_nodes e c' r d tags) as N2.
  destruct (addSampToTree e c r d tags), (addSampToTree e c' r d tags); cbn in *; auto. eapply same_load_nodes; eauto.
Qed.

Section One.
Variables load load' : ctx -> text -> er (ctx * bool).
Hypothesis HL : forall c c' f, same_load c c' -> rsim lsim (load c f) (load' c' f).
Variable afuel : nat.

Lemma processAnnotate_load c c' u : same_load c c' -> rsim same_load (processAnnotate afuel c u) (processAnnotate afuel c' u).
Proof.
  intros H. unfold processAnnotate. destruct (skipn _ _); [exact H|]. destruct (firstn _ _); [exact H|]. destruct (negb _); [exact H|]. apply rsim_eq. intros [ops|]; [|exact H].
  destruct H as ((A1 & A2) & A3). cbn. split; auto. split; auto. cbn. rewrite A2. reflexivity.
Qed.
Lemma processType_load c c' u : same_load c c' -> rsim same_load (processType e c u) (processType e c' u).
Proof.
  intros H. unfold processType. destruct (getTypeName u) as [[nm [|s0 s]]|]; try exact H.
  pose proof (proj2 (proj2 (proj1 (proj1 H)))) as ET. rewrite <- ET. destruct (findType (c_types c) nm 0); [apply addSamp_load; exact H|].
  unfold newPDAG. rewrite <- (hsim_len _ _ (proj1 (proj1 (proj1 H)))). cbn [c_types set_nodes]. apply addSamp_load.
  destruct H as (((B1 & B2 & B3) & A2) & A3). split; auto. split; auto. split; cbn; [apply new_sim; auto|]. split; [exact B2|]. rewrite B3. reflexivity.
Qed.
Lemma processSamp_load c c' line : same_load c c' -> rsim lsim (processSamp e load afuel c line) (processSamp e load' afuel c' line).
Proof.
  intros H. assert (HK : forall x y, rsim same_load x y -> rsim lsim (do* c := x in EOk (c, true)) (do* c := y in EOk (c, true))).
  { intros x y Hxy. eapply rsim_bind; [exact Hxy|]. intros a b Hab. split; auto. }
  unfold processSamp. destruct (getLineType line) as [[ty u]|]; [|split; auto].
  destruct (text_eqb ty (L "prefix")). { split; auto. destruct H as (A1 & A2 & A3). split; auto. }
  destruct (text_eqb ty (L "extendprefix")). { destruct H as (A1 & A2 & A3). rewrite <- A2. destruct (c_prefix c); [|reflexivity]. split; auto. split; auto. }
  destruct (text_eqb ty (L "rule")).
  { apply HK. unfold processRule. apply rsim_eq. intros [[tg [|s0 s]]|]; try exact H. rewrite <- (proj1 (proj2 H)), <- (proj1 (proj2 (proj1 (proj1 H)))). apply addSamp_load. exact H. }
  destruct (text_eqb ty (L "type")); [apply HK; apply processType_load; exact H|].
  destruct (text_eqb ty (L "annotate")); [apply HK; apply processAnnotate_load; exact H|].
  destruct (text_eqb ty (L "include")); [|split; auto].
  apply rsim_eq. intros f. eapply rsim_bind; [apply HL; exact H|]. intros [c1 ok] [c1' ok'] [B1 B2]. cbn in *. split; auto.
Qed.
Lemma process_load : forall ls ls' c c', map fst ls = map fst ls' -> same_load c c' -> rsim lsim (process e load afuel c ls) (process e load' afuel c' ls').
Proof.
  induction ls as [|[l n] ls IH]; intros [|[l' n'] ls'] c c' E H; cbn in E; try discriminate; cbn [process]; [split; auto|]. injection E as <- E.
  eapply rsim_bind; [apply processSamp_load; apply same_load_pos; exact H|]. intros [c1 ok] [c1' ok'] [B1 B2]. cbn in *. subst ok'. destruct ok; [apply IH; auto|split; auto].
Qed.
Lemma load_lines_load : forall fuel isfile inp c c', same_load c c' -> c_line c = c_line c' -> rsim lsim (load_lines e load afuel fuel isfile c inp) (load_lines e load' afuel fuel isfile c' inp).
Proof.
  induction fuel as [|f IH]; intros isfile inp c c' H E; cbn [load_lines]; [reflexivity|]. rewrite <- E.
  destruct (sampRead e _ isfile inp [] 0 false (c_line c)) as [[line inp' eof ln|inp' ln]|inp' ln|].
  - pose proof (processSamp_pos e load afuel (set_pos c (c_file c) ln) line) as P1. pose proof (processSamp_pos e load' afuel (set_pos c' (c_file c') ln) line) as P2.
    pose proof (processSamp_load (set_pos c (c_file c) ln) (set_pos c' (c_file c') ln) line (same_load_pos _ _ _ _ _ _ H)) as HP.
    destruct (processSamp e load afuel _ line) as [[c1 ok]|], (processSamp e load' afuel _ line) as [[c1' ok']|]; cbn [ebind rsim] in *; try tauto. destruct HP as [HP HQ]. cbn in P1, P2, HP, HQ. subst ok'.
    destruct ok; cbn [negb]; [|split; auto]. destruct eof; [split; auto|]. apply IH; auto. cbn. destruct P1 as [_ ->], P2 as [_ ->]. reflexivity.
  - split; auto.
  - apply IH; [apply same_load_pos; exact H|reflexivity].
  - reflexivity.
Qed.
End One.

Variable q : list prs -> list prs.
Lemma optimize_nodes c : opost (fun c' => c' = set_nodes c (c_nodes c')) (optimize q c).
Proof. unfold optimize. apply opost_any. intros h. reflexivity. Qed.
Lemma optimize_load c c' : same_load c c' -> rsim same_load (optimize q c) (optimize q c').
Proof.
  intros H. pose proof (optimize_sim q c c' (proj1 (proj1 H))) as HS. pose proof (optimize_nodes c) as N1. pose proof (optimize_nodes c') as N2.
  destruct (optimize q c), (optimize q c'); cbn in *; auto. eapply same_load_nodes; eauto.
Qed.
Lemma finish_load x y : rsim lsim x y -> rsim lsim (do* (cx, ok) := x in if negb ok then EOk (cx, false) else do* cx := optimize q cx in EOk (cx, true))
  (do* (cx, ok) := y in if negb ok then EOk (cx, false) else do* cx := optimize q cx in EOk (cx, true)).
Proof.
  intros H. eapply rsim_bind; [exact H|]. intros [c ok] [c' ok'] [A B]. cbn in *. subst ok'. destruct ok; cbn [negb]; [|split; auto].
  eapply rsim_bind; [apply optimize_load; exact A|]. intros a b Hab. split; auto.
Qed.
Lemma loadSamples_load : forall fuel level c c' f, same_load c c' -> rsim lsim (loadSamples e q fuel level c f) (loadSamples e q fuel level c' f).
Proof.
  induction fuel as [|fl IH]; intros level c c' f H; cbn [loadSamples]; [reflexivity|].
  destruct (files e f) as [[|c0 content]|]; try (split; auto; fail).
  change (c_version (set_pos c f 0)) with (c_version c). change (c_version (set_pos c' f 0)) with (c_version c'). rewrite <- (proj2 (proj2 (proj2 H))).
  destruct (_ && _)%bool; [split; auto|]. destruct (negb _); [reflexivity|].
  assert (HX : rsim lsim (load_lines e (loadSamples e q fl (S level)) fl (S (List.length (c0 :: content))) true (set_pos (set_version (set_pos c f 0) 2) f 1) (skipn 10 (c0 :: content)))
    (load_lines e (loadSamples e q fl (S level)) fl (S (List.length (c0 :: content))) true (set_pos (set_version (set_pos c' f 0) 2) f 1) (skipn 10 (c0 :: content)))).
  { apply load_lines_load; [intros; apply IH; auto| |reflexivity]. destruct H as (A1 & A2 & A3 & A4). split; auto. }
  destruct (Nat.eqb level 1); [apply finish_load; exact HX|].
  eapply rsim_bind; [exact HX|]. intros [c1 ok] [c1' ok'] [A B]. cbn in *. subst ok'. destruct ok; split; auto.
Qed.
End LS.
