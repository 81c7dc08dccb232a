(** * ErrLoad: the messages of a whole load. *)
From Verif Require Import Base Time Parsers Engine Pdag Samp GraphSpec LineSpec RuleSpec LoadSpec OneSpec Err ErrSpec FrameFacts SimFacts EngineFacts2 BaseFacts LineFacts LoadText ErrFacts.

Lemma m_runaway_goes u : goes_on u -> forall f, m_runaway f u = [].
Proof.
  induction 1 as [|u H IH|x u Hx H IH|c u H1 H2 H3 H4]; intros [|f]; cbn [m_runaway]; auto.
  - change (ceq LF (chr 10)) with true. cbn iota. apply IH.
  - change (ceq "#" (chr 10)) with false. change (ceq "#" "#") with true. cbn [skip_line]. change (ceq "#" (chr 10)) with false. cbn iota. rewrite skip_line_comment by auto. apply IH.
  - assert (E1 : ceq c (chr 10) = false) by (apply ceq_false; exact H1). rewrite E1. assert (E2 : ceq c "#" = false) by (apply ceq_false; auto). rewrite E2.
    destruct (Nat.ltb _ _); auto. destruct (text_eqb _ _) eqn:E; auto. apply text_eqb_true in E. tauto.
Qed.

Section Read.
Variable e : env.
Variable isfile : bool.
Lemma m_read_entry : forall w f rest empty cnt inP n, (n < 2 ^ 32)%N ->
  no_eof e isfile w -> (empty = false \/ exists c t, w = c :: t /\ c <> LF /\ c <> "#"%char) ->
  (forall a b, w = a ++ LF :: b -> xorb inP (in_field a) = true) ->
  (isfile = true -> forall a b, w = a ++ LF :: b -> goes_on (b ++ rest)) ->
  (cnt + N.of_nat (List.length (one_line w)) < 64 * 1024)%N ->
  m_sampRead e (List.length w + f) isfile (w ++ rest) empty cnt inP n =
  m_sampRead e f isfile rest (match w with [] => empty | _ => false end) (cnt + N.of_nat (List.length (one_line w))) (xorb inP (in_field w)) (lineno n (count LF w)).
Proof.
  induction w as [|c w IH]; intros f rest empty cnt inP n Hn HE HB HL HF HS.
  - cbn [List.length app one_line filter rev count Nat.add]. change (count LF []) with 0. rewrite N.add_0_r, lineno_0 by auto. change (in_field []) with false. rewrite xorb_false_r. reflexivity.
  - assert (HE' : no_eof e isfile w) by (intros x Hx; apply HE; right; auto).
    cbn [List.length Nat.add m_sampRead app]. rewrite (HE c) by (left; auto).
    destruct (ceq c (chr 10)) eqn:EC.
    + apply ceq_true in EC. change (chr 10) with LF in EC. subst c.
      destruct HB as [HB|(c & t & E & Hc & _)]; [|injection E as <- _; destruct (Hc eq_refl)]. subst empty.
      pose proof (HL [] w eq_refl) as HP. change (in_field []) with false in HP. rewrite xorb_false_r in HP. subst inP.
      assert (HR : (true && isfile && runaway (S (List.length (w ++ rest))) (w ++ rest))%bool = false).
      { destruct isfile; cbn [andb]; auto. apply goes_on_runaway; [apply (HF eq_refl [] w); reflexivity|lia]. }
      assert (HM : (if (true && isfile)%bool then map (pair ((n + 1) mod 2 ^ 32)%N) (m_runaway (S (List.length (w ++ rest))) (w ++ rest)) else []) = []).
      { destruct isfile; cbn [andb]; auto. rewrite m_runaway_goes; [reflexivity|]. apply (HF eq_refl [] w); reflexivity. }
      cbv zeta. rewrite HM, HR. cbn [negb andb orb app]. cbn iota.
      rewrite lineno_step.
      assert (EO : one_line (LF :: w) = one_line w) by reflexivity.
      assert (EI : in_field (LF :: w) = in_field w) by (rewrite in_field_cons; destruct (in_field w); reflexivity).
      assert (ECn : count LF (LF :: w) = S (count LF w)) by (rewrite count_cons; reflexivity).
      rewrite EO, EI, ECn, (lineno_S n (count LF w)).
      rewrite IH; auto using lineno_lt.
      * destruct w; reflexivity.
      * intros a b Hab. specialize (HL (LF :: a) b). cbn [app] in HL. rewrite Hab in HL. specialize (HL eq_refl). rewrite in_field_cons in HL. destruct (in_field a); exact HL.
      * intros Hi a b Hab. apply (HF Hi (LF :: a) b). cbn. rewrite Hab. reflexivity.
    + assert (HC : c <> LF) by (apply ceq_false in EC; exact EC).
      assert (HSh : (ceq c "#" && empty)%bool = false).
      { destruct HB as [->|(c' & t & E & _ & H2)]; [apply andb_false_r|]. injection E as <- _. rewrite (proj2 (ceq_false c "#") H2). reflexivity. }
      rewrite HSh.
      assert (EO : one_line (c :: w) = c :: one_line w) by (unfold one_line; cbn [filter]; unfold LF; rewrite EC; reflexivity).
      assert (ECn : count LF (c :: w) = count LF w) by (rewrite count_cons, ceq_sym; unfold LF; rewrite EC; reflexivity).
      rewrite EO in *. cbn [List.length] in *. rewrite Nat2N.inj_succ in *.
      assert (HT : N.leb (64 * 1024) (cnt + 1) = false) by (apply N.leb_gt; lia). cbv zeta. rewrite HT.
      assert (EP : (if ceq c "%" then negb inP else inP) = xorb inP (ceq "%" c)) by (rewrite (ceq_sym "%" c); destruct (ceq c "%"), inP; reflexivity). rewrite EP.
      rewrite IH; auto.
      * rewrite ECn, in_field_cons, xorb_assoc. f_equal; [destruct w; reflexivity|lia].
      * intros a b Hab. specialize (HL (c :: a) b). cbn [app] in HL. rewrite Hab in HL. specialize (HL eq_refl). rewrite in_field_cons in HL. rewrite xorb_assoc. exact HL.
      * intros Hi a b Hab. apply (HF Hi (c :: a) b). cbn. rewrite Hab. reflexivity.
      * lia.
Qed.
Lemma m_read_line w t n f : (n < 2 ^ 32)%N -> no_eof e isfile w -> no_eof e isfile [LF] -> entry w -> in_field w = false ->
  (isfile = true -> forall a b, w = a ++ LF :: b -> goes_on (b ++ LF :: t)) -> List.length w < f ->
  m_sampRead e f isfile (w ++ LF :: t) true 0 false n = [].
Proof.
  intros Hn HE HLF HW HI HF Hf. replace f with (List.length w + (S (f - List.length w - 1))) by lia.
  rewrite m_read_entry; auto.
  - rewrite HI. destruct HW as [(c & t0 & -> & _) _ _]. cbn [m_sampRead xorb]. rewrite (HLF LF) by (left; reflexivity). change (ceq LF (chr 10)) with true. reflexivity.
  - right. apply HW.
  - intros a b Hab. rewrite (en_inner _ HW a b Hab). reflexivity.
  - apply HW.
Qed.
Lemma m_read_last w n f : (n < 2 ^ 32)%N -> no_eof e isfile w -> entry w ->
  (isfile = true -> forall a b, w = a ++ LF :: b -> goes_on b) -> List.length w < f ->
  m_sampRead e f isfile w true 0 false n = [].
Proof.
  intros Hn HE HW HF Hf. replace f with (List.length w + (S (f - List.length w - 1))) by lia.
  transitivity (m_sampRead e (List.length w + S (f - List.length w - 1)) isfile (w ++ []) true 0 false n); [rewrite app_nil_r; reflexivity|].
  rewrite m_read_entry; auto.
  - right. apply HW.
  - intros a b Hab. rewrite (en_inner _ HW a b Hab). reflexivity.
  - intros Hi a b Hab. rewrite app_nil_r. eauto.
  - apply HW.
Qed.
Lemma m_read_blank t n f : no_eof e isfile [LF] -> m_sampRead e (S f) isfile (LF :: t) true 0 false n = m_sampRead e f isfile t true 0 false (lineno n 1).
Proof. intros HE. cbn [m_sampRead]. rewrite (HE LF) by (left; auto). reflexivity. Qed.
Lemma m_read_comment x n f t : no_eof e isfile ["#"%char] -> ~ In LF x -> m_sampRead e (S f) isfile ("#"%char :: x ++ LF :: t) true 0 false n = m_sampRead e f isfile t true 0 false (lineno n 1).
Proof. intros HE HX. cbn [m_sampRead]. rewrite (HE "#"%char) by (left; auto). change (ceq "#" (chr 10)) with false. change (ceq "#" "#") with true. cbn [andb]. cbn iota. rewrite skip_line_comment by auto. reflexivity. Qed.
Lemma m_read_comment_end x n f : no_eof e isfile ["#"%char] -> ~ In LF x -> m_sampRead e (S (S f)) isfile ("#"%char :: x) true 0 false n = [].
Proof. intros HE HX. cbn [m_sampRead]. rewrite (HE "#"%char) by (left; auto). change (ceq "#" (chr 10)) with false. change (ceq "#" "#") with true. cbn [andb]. cbn iota. rewrite skip_line_end by auto. reflexivity. Qed.
End Read.

Section Whole.
Variable e : env.
Variable badint : json -> bool.
Variable load : ctx -> text -> er (ctx * bool).
Variable m_load : ctx -> text -> list message.
Variable afuel : nat.
Variable isfile : bool.
Definition m_after (cx : ctx) (fuel : nat) (r : rdres) : list message :=
  match r with
  | RFuel | RR (RNone _ _) => []
  | RTooLong inp' ln => m_load_lines e badint load m_load afuel fuel isfile (set_pos cx (c_file cx) ln) inp'
  | RR (RLine line inp' eof ln) =>
      m_processSamp e badint m_load afuel (set_pos cx (c_file cx) ln) line ++
      match processSamp e load afuel (set_pos cx (c_file cx) ln) line with
      | EOk (cx, true) => if eof then [] else m_load_lines e badint load m_load afuel fuel isfile cx inp'
      | _ => []
      end
  end.
Lemma m_load_ok : forall t n ls, rulebase isfile t n ls -> forall cx fuel rf, (n < 2 ^ 32)%N -> no_eof e isfile t ->
  List.length t <= fuel -> List.length t + 2 <= rf ->
  m_sampRead e rf isfile t true 0 false n = [] /\ m_after cx fuel (sampRead e rf isfile t [] 0 false n) = reported e badint load m_load afuel cx ls.
Proof.
  induction 1 as [n|t n ls H IH|x t n ls HX H IH|x n HX|w t n ls HW HI HF H IH|w n HW HF]; intros cx fuel rf Hn HE Hf Hr.
  - destruct rf as [|rf]; [lia|]. split; reflexivity.
  - destruct rf as [|rf]; [lia|]. apply no_eof_cons in HE as [HE1 HE2]. cbn [List.length] in Hf, Hr. rewrite read_blank, m_read_blank by auto. apply IH; auto using lineno_lt; lia.
  - destruct rf as [|rf]; [lia|]. apply no_eof_cons in HE as [HE1 HE2]. apply no_eof_app in HE2 as [_ HE2]. apply no_eof_cons in HE2 as [_ HE2]. cbn [List.length] in Hf, Hr. rewrite app_length in Hf, Hr. cbn [List.length] in Hf, Hr.
    rewrite read_comment, m_read_comment by auto. apply IH; auto using lineno_lt; lia.
  - destruct rf as [|[|rf]]; [lia|lia|]. apply no_eof_cons in HE as [HE1 HE2]. rewrite read_comment_end, m_read_comment_end by auto. split; reflexivity.
  - apply no_eof_app in HE as [HE1 HE2]. apply no_eof_cons in HE2 as [HE2 HE3]. rewrite app_length in Hf, Hr. cbn [List.length] in Hf, Hr.
    rewrite read_line by (auto; lia). split; [apply m_read_line; auto; lia|]. cbn [m_after reported]. f_equal. pose proof (processSamp_pos e load afuel (set_pos cx (c_file cx) (lineno n (count LF w + 1))) (one_line w)) as HP.
    destruct (processSamp e load afuel _ (one_line w)) as [[c1 ok]|u]; [|reflexivity]. cbn [opost fst] in HP. destruct HP as [_ HP]. change (c_line c1 = lineno n (count LF w + 1)) in HP.
    destruct ok; [|reflexivity]. destruct fuel as [|fuel]; [lia|]. cbn [m_load_lines]. rewrite HP.
    destruct (IH c1 fuel (S (S (List.length t))) (lineno_lt _ _) HE3 ltac:(lia) ltac:(lia)) as [A B]. rewrite A. exact B.
  - rewrite read_last by (auto; lia). split; [apply m_read_last; auto; lia|]. cbn [m_after reported].
    destruct (processSamp e load afuel _ (one_line w)) as [[c1 ok]|u]; [|reflexivity]. destruct ok; reflexivity.
Qed.
Lemma m_load_lines_reported t ls cx fuel : rulebase isfile t (c_line cx) ls -> (c_line cx < 2 ^ 32)%N -> no_eof e isfile t -> List.length t < fuel ->
  m_load_lines e badint load m_load afuel fuel isfile cx t = reported e badint load m_load afuel cx ls.
Proof. intros H Hn HE Hf. destruct fuel as [|fuel]; [lia|]. cbn [m_load_lines]. destruct (m_load_ok t (c_line cx) ls H cx fuel (S (S (List.length t))) Hn HE ltac:(lia) ltac:(lia)) as [A B]. rewrite A. exact B. Qed.

(** ** A load that fails says so *)
Hypothesis Hload : forall cx f cx', load cx f = EOk (cx', false) -> m_load cx f <> [].
Lemma line_fails cx line cx' : processSamp e load afuel cx line = EOk (cx', false) -> m_processSamp e badint m_load afuel cx line <> [].
Proof.
  unfold processSamp, m_processSamp. destruct (getLineType line) as [[ty u]|]; [|discriminate].
  destruct (text_eqb ty (L "prefix")); [discriminate|]. destruct (text_eqb ty (L "extendprefix")); [destruct (c_prefix cx); discriminate|].
  destruct (text_eqb ty (L "rule")); [intros H; apply ebind_ok in H as (c & _ & H); discriminate|]. destruct (text_eqb ty (L "type")); [intros H; apply ebind_ok in H as (c & _ & H); discriminate|].
  destruct (text_eqb ty (L "annotate")); [intros H; apply ebind_ok in H as (c & _ & H); discriminate|]. destruct (text_eqb ty (L "include")); [|discriminate].
  intros H. apply ebind_ok in H as (f & -> & H). apply ebind_ok in H as ([c ok] & H1 & H). injection H as _ ->. eapply Hload; exact H1.
Qed.
Lemma lines_fail : forall fuel cx inp cx', load_lines e load afuel fuel isfile cx inp = EOk (cx', false) -> m_load_lines e badint load m_load afuel fuel isfile cx inp <> [].
Proof.
  induction fuel as [|fuel IH]; intros cx inp cx' H; [discriminate|]. cbn [load_lines m_load_lines] in *. apply app_ne_r.
  destruct (sampRead e _ isfile inp [] 0 false (c_line cx)) as [[line inp' eof ln|i ln]|inp' ln|]; try discriminate; [|eapply IH; exact H].
  apply ebind_ok in H as ([c ok] & H1 & H). rewrite H1. destruct ok; cbn [negb] in H.
  - destruct eof; [discriminate|]. apply app_ne_r. eapply IH; exact H.
  - apply app_ne_l. eapply line_fails; exact H1.
Qed.
End Whole.
Lemma load_fails e badint q : forall fuel level cx file cx', loadSamples e q fuel level cx file = EOk (cx', false) -> m_loadSamples e badint q fuel level cx file <> [].
Proof.
  induction fuel as [|fuel IH]; intros level cx file cx' H; [discriminate|]. cbn [loadSamples m_loadSamples] in *. destruct (files e file) as [content|]; [|discriminate].
  destruct content as [|c0 content]; [discriminate|]. set (t := c0 :: content) in *. clearbody t. cbv zeta in *.
  destruct (negb (N.eqb (c_version (set_pos cx file 0)) 0) && negb (N.eqb (if text_eqb (firstn 10 t) version2 then 2%N else 1%N) (c_version (set_pos cx file 0))))%bool; [discriminate|].
  destruct (text_eqb (firstn 10 t) version2); cbn [negb] in *; [|discriminate]. apply ebind_ok in H as ([c ok] & H1 & H). destruct ok; cbn [negb] in H.
  - destruct (Nat.eqb level 1); [apply ebind_ok in H as (c2 & _ & H)|]; discriminate.
  - eapply lines_fail; [|exact H1]. intros cx0 f0 cx0' H0. eapply IH; exact H0.
Qed.
Lemma loadString_fails e badint q fuel cx t cx' : loadString e q fuel cx t = EOk (cx', false) -> m_loadString e badint q fuel cx t <> [].
Proof.
  unfold loadString, m_loadString. cbv zeta. intros H. apply ebind_ok in H as ([c ok] & H1 & H). destruct ok; cbn [negb] in H; [apply ebind_ok in H as (c2 & _ & H); discriminate|].
  eapply lines_fail; [|exact H1]. intros cx0 f0 cx0' H0. eapply load_fails; exact H0.
Qed.
