(** * LineFacts: the reader splits a rulebase into its lines. *)
From Verif Require Import Base Parsers Engine Pdag Samp LineSpec BaseFacts EngineFacts2 FrameFacts SimFacts.
From Coq Require Import ZifyBool ZifyNat ZifyN.

Lemma lineno_S n k : lineno n (S k) = lineno (lineno n 1) k.
Proof. unfold lineno. rewrite N.add_mod_idemp_l by discriminate. f_equal. lia. Qed.
Lemma lineno_step n : ((n + 1) mod 2 ^ 32)%N = lineno n 1. Proof. reflexivity. Qed.
Lemma lineno_add n a b : lineno (lineno n a) b = lineno n (a + b).
Proof. unfold lineno. rewrite N.add_mod_idemp_l by discriminate. f_equal. lia. Qed.

Lemma in_field_cons c t : in_field (c :: t) = xorb (ceq "%" c) (in_field t).
Proof. unfold in_field, count. cbn [filter]. destruct (ceq "%" c); cbn [List.length]; [rewrite Nat.odd_succ, <- Nat.negb_odd|]; destruct (Nat.odd (List.length (filter (ceq "%") t))); reflexivity. Qed.
Lemma lineno_0 n : (n < 2 ^ 32)%N -> lineno n 0 = n. Proof. intros H. unfold lineno. rewrite N.add_0_r. apply N.mod_small. exact H. Qed.
Lemma lineno_lt n k : (lineno n k < 2 ^ 32)%N. Proof. apply N.mod_lt. discriminate. Qed.
Lemma count_cons c d t : count c (d :: t) = (if ceq c d then 1 else 0) + count c t.
Proof. unfold count. cbn [filter]. destruct (ceq c d); reflexivity. Qed.
Lemma ceq_sym a b : ceq a b = ceq b a. Proof. destruct (ceq a b) eqn:E; [apply ceq_true in E; subst; symmetry; apply ceq_refl|]. apply ceq_false in E. symmetry. apply ceq_false. congruence. Qed.

Lemma skip_line_comment x t : ~ In LF x -> skip_line (x ++ LF :: t) = t.
Proof.
  induction x as [|c x IH]; intros H; cbn [app skip_line]; [reflexivity|]. cbn [In] in H. destruct (ceq c (chr 10)) eqn:E; [apply ceq_true in E; subst; destruct H; left; reflexivity|]. apply IH. tauto.
Qed.
Lemma skip_line_end x : ~ In LF x -> skip_line x = [].
Proof. induction x as [|c x IH]; intros H; cbn [skip_line]; [reflexivity|]. cbn [In] in H. destruct (ceq c (chr 10)) eqn:E; [apply ceq_true in E; subst; destruct H; left; reflexivity|]. apply IH. tauto. Qed.

Lemma goes_on_runaway u : goes_on u -> forall f, List.length u < f -> runaway f u = false.
Proof.
  induction 1 as [|u H IH|x u Hx H IH|c u H1 H2 H3 H4]; intros [|f] Hf; try lia; cbn [runaway]; auto.
  - change (ceq LF (chr 10)) with true. cbn. apply IH. cbn in Hf. lia.
  - change (ceq "#" (chr 10)) with false. change (ceq "#" "#") with true. cbn [skip_line]. change (ceq "#" (chr 10)) with false. cbn iota. rewrite skip_line_comment by auto.
    apply IH. cbn in Hf. rewrite app_length in Hf. cbn in Hf. lia.
  - assert (E1 : ceq c (chr 10) = false) by (apply ceq_false; exact H1). rewrite E1. assert (E2 : ceq c "#" = false) by (apply ceq_false; auto). rewrite E2.
    assert (E3 : Nat.ltb (List.length (c :: u)) 5 = false) by (apply Nat.ltb_ge; lia). rewrite E3. destruct (text_eqb _ _) eqn:E; auto. apply text_eqb_true in E. tauto.
Qed.

Section Read.
Variable e : env.
Variable isfile : bool.

Lemma read_entry : forall w f rest buf cnt inP n, (n < 2 ^ 32)%N ->
  no_eof e isfile w -> (buf <> [] \/ exists c t, w = c :: t /\ c <> LF /\ c <> "#"%char) ->
  (forall a b, w = a ++ LF :: b -> xorb inP (in_field a) = true) ->
  (isfile = true -> forall a b, w = a ++ LF :: b -> goes_on (b ++ rest)) ->
  (cnt + N.of_nat (List.length (one_line w)) < 64 * 1024)%N ->
  sampRead e (List.length w + f) isfile (w ++ rest) buf cnt inP n =
  sampRead e f isfile rest (rev (one_line w) ++ buf) (cnt + N.of_nat (List.length (one_line w))) (xorb inP (in_field w)) (lineno n (count LF w)).
Proof.
  induction w as [|c w IH]; intros f rest buf cnt inP n Hn HE HB HL HF HS.
  - cbn [List.length app one_line filter rev count Nat.add]. change (count LF []) with 0. rewrite N.add_0_r, lineno_0 by auto. change (in_field []) with false. rewrite xorb_false_r. reflexivity.
  - assert (HE' : no_eof e isfile w) by (intros x Hx; apply HE; right; auto).
    cbn [List.length Nat.add sampRead app]. rewrite (HE c) by (left; auto).
    destruct (ceq c (chr 10)) eqn:EC.
    + apply ceq_true in EC. change (chr 10) with LF in EC. subst c.
      destruct HB as [HB|(c & t & E & Hc & _)]; [|injection E as <- _; destruct (Hc eq_refl)].
      pose proof (HL [] w eq_refl) as HP. change (in_field []) with false in HP. rewrite xorb_false_r in HP. subst inP.
      assert (HR : (true && isfile && runaway (S (List.length (w ++ rest))) (w ++ rest))%bool = false).
      { destruct isfile; cbn [andb]; auto. apply goes_on_runaway; [apply (HF eq_refl [] w); reflexivity|lia]. }
      rewrite HR. cbn [negb andb]. destruct buf as [|b0 buf]; [destruct (HB eq_refl)|].
      rewrite lineno_step.
      assert (EO : one_line (LF :: w) = one_line w) by reflexivity.
      assert (EI : in_field (LF :: w) = in_field w) by (rewrite in_field_cons; destruct (in_field w); reflexivity).
      assert (ECn : count LF (LF :: w) = S (count LF w)) by (rewrite count_cons; reflexivity).
      rewrite EO, EI, ECn, (lineno_S n (count LF w)).
      apply IH; auto using lineno_lt.
      * intros a b Hab. specialize (HL (LF :: a) b). cbn [app] in HL. rewrite Hab in HL. specialize (HL eq_refl). rewrite in_field_cons in HL. destruct (in_field a); exact HL.
      * intros Hi a b Hab. apply (HF Hi (LF :: a) b). cbn. rewrite Hab. reflexivity.
    + assert (HC : c <> LF) by (apply ceq_false in EC; exact EC).
      assert (HSh : (ceq c "#" && match buf with [] => true | _ :: _ => false end)%bool = false).
      { destruct buf as [|b0 buf]; [|apply andb_false_r]. destruct HB as [HB|(c' & t & E & _ & H2)]; [destruct (HB eq_refl)|]. injection E as <- _. rewrite (proj2 (ceq_false c "#") H2). reflexivity. }
      rewrite HSh.
      assert (EO : one_line (c :: w) = c :: one_line w) by (unfold one_line; cbn [filter]; unfold LF; rewrite EC; reflexivity).
      assert (ECn : count LF (c :: w) = count LF w) by (rewrite count_cons, ceq_sym; unfold LF; rewrite EC; reflexivity).
      rewrite EO in *. cbn [List.length] in *. rewrite Nat2N.inj_succ in *.
      assert (HT : N.leb (64 * 1024) (cnt + 1) = false) by (apply N.leb_gt; lia). rewrite HT.
      assert (EP : (if ceq c "%" then negb inP else inP) = xorb inP (ceq "%" c)) by (rewrite (ceq_sym "%" c); destruct (ceq c "%"), inP; reflexivity). rewrite EP.
      rewrite IH; auto.
      * rewrite ECn, in_field_cons, xorb_assoc. cbn [rev List.length]. rewrite <- app_assoc. cbn [app]. f_equal. lia.
      * left. discriminate.
      * intros a b Hab. specialize (HL (c :: a) b). cbn [app] in HL. rewrite Hab in HL. specialize (HL eq_refl). rewrite in_field_cons in HL. rewrite xorb_assoc. exact HL.
      * intros Hi a b Hab. apply (HF Hi (c :: a) b). cbn. rewrite Hab. reflexivity.
      * lia.
Qed.

Lemma entry_nonnil w : entry w -> one_line w <> [].
Proof. intros [(c & t & -> & H & _) _ _]. unfold one_line. cbn [filter]. rewrite (proj2 (ceq_false c LF) H). discriminate. Qed.

Lemma rev_nonnil {A} (l : list A) : l <> [] -> rev l <> [].
Proof. intros H E. apply H. rewrite <- (rev_involutive l), E. reflexivity. Qed.
(** one call of the reader on an entry with its line feed *)
Lemma read_line w t n f : (n < 2 ^ 32)%N -> no_eof e isfile w -> no_eof e isfile [LF] -> entry w -> in_field w = false ->
  (isfile = true -> forall a b, w = a ++ LF :: b -> goes_on (b ++ LF :: t)) -> List.length w < f ->
  sampRead e f isfile (w ++ LF :: t) [] 0 false n = RR (RLine (one_line w) t false (lineno n (count LF w + 1))).
Proof.
  intros Hn HE HLF HW HI HF Hf. replace f with (List.length w + (S (f - List.length w - 1))) by lia.
  rewrite read_entry; auto.
  - rewrite HI, app_nil_r. cbn [sampRead xorb]. rewrite (HLF LF) by (left; reflexivity). change (ceq LF (chr 10)) with true. cbn [andb negb].
    pose proof (rev_nonnil _ (entry_nonnil w HW)) as HR. destruct (rev (one_line w)) as [|b0 b] eqn:ER; [destruct (HR eq_refl)|]. cbn iota. rewrite <- ER, rev_involutive.
    rewrite lineno_step, lineno_add. reflexivity.
  - right. apply HW.
  - intros a b Hab. rewrite (en_inner _ HW a b Hab). reflexivity.
  - apply HW.
Qed.
Lemma read_last w n f : (n < 2 ^ 32)%N -> no_eof e isfile w -> entry w ->
  (isfile = true -> forall a b, w = a ++ LF :: b -> goes_on b) -> List.length w < f ->
  sampRead e f isfile w [] 0 false n = RR (RLine (one_line w) [] true (lineno n (count LF w))).
Proof.
  intros Hn HE HW HF Hf. replace f with (List.length w + (S (f - List.length w - 1))) by lia.
  transitivity (sampRead e (List.length w + S (f - List.length w - 1)) isfile (w ++ []) [] 0 false n); [rewrite app_nil_r; reflexivity|].
  rewrite read_entry; auto.
  - rewrite app_nil_r. cbn [sampRead].
    pose proof (rev_nonnil _ (entry_nonnil w HW)) as HR. destruct (rev (one_line w)) as [|b0 b] eqn:ER; [destruct (HR eq_refl)|]. cbn iota. rewrite <- ER, rev_involutive. reflexivity.
  - right. apply HW.
  - intros a b Hab. rewrite (en_inner _ HW a b Hab). reflexivity.
  - intros Hi a b Hab. rewrite app_nil_r. eauto.
  - apply HW.
Qed.
Lemma read_blank t n f : no_eof e isfile [LF] -> sampRead e (S f) isfile (LF :: t) [] 0 false n = sampRead e f isfile t [] 0 false (lineno n 1).
Proof. intros HE. cbn [sampRead]. rewrite (HE LF) by (left; auto). reflexivity. Qed.
Lemma read_comment x n f t : no_eof e isfile ["#"%char] -> ~ In LF x -> sampRead e (S f) isfile ("#"%char :: x ++ LF :: t) [] 0 false n = sampRead e f isfile t [] 0 false (lineno n 1).
Proof. intros HE HX. cbn [sampRead]. rewrite (HE "#"%char) by (left; auto). change (ceq "#" (chr 10)) with false. change (ceq "#" "#") with true. cbn [andb]. cbn iota. rewrite skip_line_comment by auto. reflexivity. Qed.
Lemma read_comment_end x n f : no_eof e isfile ["#"%char] -> ~ In LF x -> sampRead e (S (S f)) isfile ("#"%char :: x) [] 0 false n = RR (RNone [] (lineno n 1)).
Proof. intros HE HX. cbn [sampRead]. rewrite (HE "#"%char) by (left; auto). change (ceq "#" (chr 10)) with false. change (ceq "#" "#") with true. cbn [andb]. cbn iota. rewrite skip_line_end by auto. reflexivity. Qed.

(** more fuel makes no difference to the reader *)
Lemma read_more : forall f inp buf cnt inP n r k, sampRead e f isfile inp buf cnt inP n = RR r -> sampRead e (f + k) isfile inp buf cnt inP n = RR r.
Proof.
  induction f as [|f IH]; intros inp buf cnt inP n r k; cbn [sampRead Nat.add]; [discriminate|].
  repeat match goal with
  | |- (match ?x with _ => _ end) = _ -> _ => destruct x; try discriminate; auto
  | |- (if ?x then _ else _) = _ -> _ => destruct x; try discriminate; auto
  end; intros H; auto.
Qed.
End Read.

(** ** The whole text *)
Lemma eqpos_refl c : eqpos c c. Proof. destruct c. reflexivity. Qed.
Lemma eqpos_set c f n m : f = c_file c -> eqpos (set_pos (set_pos c (c_file c) m) f n) c. Proof. intros ->. destruct c. reflexivity. Qed.
Lemma eqpos_set1 c n : eqpos (set_pos c (c_file c) n) c. Proof. destruct c. reflexivity. Qed.

Section Whole.
Variable e : env.
Variable load : ctx -> text -> er (ctx * bool).
Variable afuel : nat.
Variable isfile : bool.

Lemma no_eof_app t u : no_eof e isfile (t ++ u) -> no_eof e isfile t /\ no_eof e isfile u.
Proof. intros H. split; intros c Hc; apply H; apply in_or_app; auto. Qed.
Lemma no_eof_cons c u : no_eof e isfile (c :: u) -> no_eof e isfile [c] /\ no_eof e isfile u.
Proof. intros H. split; intros x Hx; apply H; cbn in *; tauto. Qed.

Lemma processSamp_pos cx line : opost (fun x => c_file (fst x) = c_file cx /\ c_line (fst x) = c_line cx) (processSamp e load afuel cx line).
Proof.
  assert (HS : forall c r d tg, opost (fun c' => c_file c' = c_file c /\ c_line c' = c_line c) (addSampToTree e c r d tg)).
  { intros c r d tg. eapply opost_mono; [apply addSamp_nodes|]. intros c' E. rewrite E. auto. }
  unfold processSamp. destruct (getLineType line) as [[ty u]|]; [|cbn; auto].
  destruct (text_eqb ty (L "prefix")); [cbn; auto|].
  destruct (text_eqb ty (L "extendprefix")); [destruct (c_prefix cx); cbn; auto|].
  destruct (text_eqb ty (L "rule")).
  { eapply opost_bind with (P := fun c => c_file c = c_file cx /\ c_line c = c_line cx); [|intros c H; exact H]. unfold processRule. apply opost_any. intros [[tg [|c0 s]]|]; cbn; auto. }
  destruct (text_eqb ty (L "type")).
  { eapply opost_bind with (P := fun c => c_file c = c_file cx /\ c_line c = c_line cx); [|intros c H; exact H]. unfold processType. destruct (getTypeName u) as [[nm [|c0 s]]|]; try (cbn; auto; fail).
    destruct (findType (c_types cx) nm 0); [apply HS|]. unfold newPDAG. eapply opost_mono; [apply HS|]. cbn. auto. }
  destruct (text_eqb ty (L "annotate")).
  { eapply opost_bind with (P := fun c => c_file c = c_file cx /\ c_line c = c_line cx); [|intros c H; exact H]. unfold processAnnotate.
    destruct (skipn _ _); [cbn; auto|]. destruct (firstn _ _); [cbn; auto|]. destruct (negb _); [cbn; auto|]. apply opost_any. intros [ops|]; cbn; auto. }
  destruct (text_eqb ty (L "include")); [|cbn; auto].
  apply opost_any. intros f. apply opost_any. intros [c' ok]. cbn. auto.
Qed.

Definition after_read (cx : ctx) (fuel : nat) (r : rdres) : er (ctx * bool) :=
  match r with
      | RFuel => EUb OutOfFuel
      | RTooLong inp' ln => load_lines e load afuel fuel isfile (set_pos cx (c_file cx) ln) inp'
      | RR (RNone _ ln) => EOk (set_pos cx (c_file cx) ln, true)
      | RR (RLine line inp' eof ln) =>
          do* (cx, ok) := processSamp e load afuel (set_pos cx (c_file cx) ln) line in
          if negb ok then EOk (cx, false)
          else if eof then EOk (cx, true)
          else load_lines e load afuel fuel isfile cx inp'
      end.
Definition like (x y : ctx * bool) : Prop := eqpos (fst x) (fst y) /\ snd x = snd y.

Lemma load_lines_ok : forall t n ls, rulebase isfile t n ls -> forall cx fuel rf, (n < 2 ^ 32)%N -> no_eof e isfile t ->
  List.length t <= fuel -> List.length t + 2 <= rf ->
  rsim like (after_read cx fuel (sampRead e rf isfile t [] 0 false n)) (process e load afuel cx ls).
Proof.
  induction 1 as [n|t n ls H IH|x t n ls HX H IH|x n HX|w t n ls HW HI HF H IH|w n HW HF]; intros cx fuel rf Hn HE Hf Hr.
  - destruct rf as [|rf]; [lia|]. cbn [sampRead after_read process rsim]. split; auto. apply eqpos_set1.
  - destruct rf as [|rf]; [lia|]. apply no_eof_cons in HE as [HE1 HE2]. cbn [List.length] in Hf, Hr. rewrite read_blank by auto. apply IH; auto using lineno_lt; lia.
  - destruct rf as [|rf]; [lia|]. apply no_eof_cons in HE as [HE1 HE2]. apply no_eof_app in HE2 as [_ HE2]. apply no_eof_cons in HE2 as [_ HE2]. cbn [List.length] in Hf, Hr. rewrite app_length in Hf, Hr. cbn [List.length] in Hf, Hr.
    rewrite read_comment by auto. apply IH; auto using lineno_lt; lia.
  - destruct rf as [|[|rf]]; [lia|lia|]. apply no_eof_cons in HE as [HE1 HE2]. rewrite read_comment_end by auto. cbn [after_read process rsim]. split; auto. apply eqpos_set1.
  - apply no_eof_app in HE as [HE1 HE2]. apply no_eof_cons in HE2 as [HE2 HE3]. rewrite app_length in Hf, Hr. cbn [List.length] in Hf, Hr.
    rewrite read_line by (auto; lia). cbn [after_read process]. pose proof (processSamp_pos (set_pos cx (c_file cx) (lineno n (count LF w + 1))) (one_line w)) as HP.
    destruct (processSamp e load afuel _ (one_line w)) as [[c1 ok]|u]; cbn [ebind]; [|reflexivity]. cbn in HP. destruct HP as [_ HP].
    destruct ok; cbn [negb]; [|split; auto; apply eqpos_refl]. destruct fuel as [|fuel]; [lia|]. cbn [load_lines]. rewrite HP. apply IH; auto using lineno_lt; lia.
  - rewrite read_last by (auto; lia). cbn [after_read process].
    destruct (processSamp e load afuel _ (one_line w)) as [[c1 ok]|u]; cbn [ebind]; [|reflexivity]. destruct ok; cbn [negb]; split; auto; apply eqpos_refl.
Qed.
Lemma load_lines_process t ls cx fuel : rulebase isfile t (c_line cx) ls -> (c_line cx < 2 ^ 32)%N -> no_eof e isfile t -> List.length t < fuel ->
  rsim like (load_lines e load afuel fuel isfile cx t) (process e load afuel cx ls).
Proof. intros H Hn HE Hf. destruct fuel as [|fuel]; [lia|]. cbn [load_lines]. apply (load_lines_ok t (c_line cx) ls H cx fuel); auto; lia. Qed.
End Whole.
