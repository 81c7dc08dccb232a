(** * IntFacts: exact integer scanning when the run of digits is short. *)
From Verif Require Import Base Time Parsers BaseFacts FieldSpec SafetySpec FieldFacts FieldFacts2 FieldFacts3.
From Coq Require Import ZifyBool ZifyNat ZifyN.

Lemma long_run_sfx k t a u : t = a ++ u -> long_run k u -> long_run k t.
Proof. intros -> (x & ds & b & -> & H). exists (a ++ x), ds, b. rewrite <- app_assoc. auto. Qed.

Lemma decimal_bound ds : all_digits ds -> (0 <= decimal ds < 10 ^ Z.of_nat (List.length ds))%Z.
Proof.
  intros H. assert (G : forall ds v, all_digits ds -> (0 <= v)%Z -> (0 <= dec_from v ds < (v + 1) * 10 ^ Z.of_nat (List.length ds))%Z).
  { clear. induction ds as [|c ds IH]; intros v HF Hv; cbn [dec_from fold_left List.length].
    - cbn. lia.
    - inversion HF as [|? ? Hc HF']; subst. pose proof (digit_value_range c Hc).
      specialize (IH (10 * v + digit_value c)%Z HF' ltac:(lia)). unfold dec_from in IH.
      rewrite Nat2Z.inj_succ, Z.pow_succ_r by lia. nia. }
  specialize (G ds 0%Z H ltac:(lia)). unfold decimal, dec_from in *. lia.
Qed.

Lemma hParseInt_go_exact e : forall t v, (0 <= v)%Z -> (dec_from v (lead t) + 48 < 2 ^ 31)%Z ->
  hParseInt_go e v t = Ok (dec_from v (lead t), skipn (scan isdigit t) t).
Proof.
  induction t as [|c t IH]; intros v Hv Hb; cbn [hParseInt_go].
  - reflexivity.
  - destruct (isdigit c) eqn:E.
    + rewrite lead_cons in Hb by auto. rewrite lead_cons by auto. cbn [dec_from fold_left scan] in *. rewrite E.
      pose proof E as Hd. apply isdigit_iff in Hd. pose proof (digit_value_range c Hd).
      pose proof (dec_from_ge (lead t) (lead_digits t) (10 * v + digit_value c)%Z).
      fold (dec_from (10 * v + digit_value c) (lead t)) in Hb.
      rewrite acc10_exact; auto; [|change (32 - 1)%Z with 31%Z; lia].
      cbn [bind]. rewrite IH by lia. reflexivity.
    + unfold lead. cbn [scan]. rewrite E. reflexivity.
Qed.
Lemma hParseInt_exact e t : (decimal (lead t) + 48 < 2 ^ 31)%Z ->
  hParseInt e t = Ok (decimal (lead t), skipn (scan isdigit t) t).
Proof. intros H. apply hParseInt_go_exact; [lia|exact H]. Qed.

Lemma lead_len t : List.length (lead t) = scan isdigit t.
Proof. unfold lead. rewrite firstn_length. pose proof (scan_le isdigit t). lia. Qed.
Lemma lead_split t : t = lead t ++ skipn (scan isdigit t) t.
Proof. unfold lead. symmetry. apply firstn_skipn. Qed.
Lemma pow10_le a b : a <= b -> (10 ^ Z.of_nat a <= 10 ^ Z.of_nat b)%Z.
Proof. intros. apply Z.pow_le_mono_r; lia. Qed.
Lemma lead_small k t : List.length (lead t) <= k -> (0 <= decimal (lead t) < 10 ^ Z.of_nat k)%Z.
Proof.
  intros H. pose proof (decimal_bound (lead t) (lead_digits t)). pose proof (pow10_le _ _ H). lia.
Qed.
Lemma lead_long k t : k <= List.length (lead t) -> long_run k t.
Proof.
  intros H. exists [], (firstn k (lead t)), (skipn k (lead t) ++ skipn (scan isdigit t) t).
  split; [cbn [app]; rewrite app_assoc, (firstn_skipn k (lead t)); apply lead_split|]. split; [|rewrite firstn_length; lia].
  pose proof (lead_digits t) as HF. rewrite <- (firstn_skipn k (lead t)) in HF. apply Forall_app in HF as [HF _]. exact HF.
Qed.

(** undefined behaviour: only signed overflow, only if the platform does not wrap, only if
    there are [k] digits in a row *)
Definition Uov (e : env) (k : nat) (t : text) (u : ub) : Prop := u = SignedOverflow /\ wraps e = false /\ long_run k t.

Lemma post_sint e w z : post (fun u => u = SignedOverflow /\ wraps e = false) (fun _ => True) (sint e w z).
Proof. unfold sint. destruct (fits w z); cbn; auto. destruct (wraps e) eqn:E; cbn; auto. Qed.
Lemma post_acc10 e w v c : post (fun u => u = SignedOverflow /\ wraps e = false) (fun _ => True) (acc10 e w v c).
Proof.
  unfold acc10. eapply post_bind; [apply post_sint|]. intros a _. eapply post_bind; [apply post_sint|]. intros b _. apply post_sint.
Qed.
Lemma hParseInt_go_kind e : forall t i, post (fun u => u = SignedOverflow /\ wraps e = false)
  (fun r => snd r = skipn (scan isdigit t) t) (hParseInt_go e i t).
Proof.
  induction t as [|c t IH]; intros i; cbn [hParseInt_go scan]; [reflexivity|].
  destruct (isdigit c); [|reflexivity]. eapply post_bind; [apply post_acc10|]. intros i' _. cbn [skipn]. apply IH.
Qed.
Lemma post_hParseInt e T t : (exists a, T = a ++ t) ->
  post (Uov e 10 T) (fun r => snd r = skipn (scan isdigit t) t /\ (scan isdigit t < 10 -> fst r = decimal (lead t))) (hParseInt e t).
Proof.
  intros [a Ha]. destruct (Nat.ltb_spec (scan isdigit t) 10) as [Hl|Hl].
  - pose proof (lead_small 9 t) as Hb. rewrite lead_len in Hb. specialize (Hb ltac:(lia)). change (10 ^ Z.of_nat 9)%Z with 1000000000%Z in Hb.
    rewrite hParseInt_exact by lia. cbn. auto.
  - pose proof (hParseInt_go_kind e t 0) as H. fold (hParseInt e t) in H. destruct (hParseInt e t) as [[v u]| |x]; cbn in *; auto.
    + split; auto. lia.
    + destruct H as [-> H]. split; auto. split; auto. eapply long_run_sfx; [exact Ha|]. apply lead_long. rewrite lead_len. lia.
Qed.
Lemma skipn_sfx {A} k (t : list A) : exists a, t = a ++ skipn k t.
Proof. exists (firstn k t). symmetry. apply firstn_skipn. Qed.
Lemma sfx_trans {A} (T t u : list A) : (exists a, T = a ++ t) -> (exists a, t = a ++ u) -> exists a, T = a ++ u.
Proof. intros [a ->] [b ->]. exists (a ++ b). apply app_assoc. Qed.
Lemma sfx_refl {A} (t : list A) : exists a, t = a ++ t. Proof. exists []. reflexivity. Qed.

Lemma post_intIn e T lo hi t : (exists a, T = a ++ t) ->
  post (Uov e 10 T) (fun r => (exists a, T = a ++ snd r) /\ (lo <= fst r <= hi)%Z) (intIn e lo hi t).
Proof.
  intros HT. unfold intIn. eapply post_bind; [apply post_hParseInt; exact HT|]. intros [v u] [H _]. cbn in H.
  destruct (_ || _)%bool eqn:E; cbn; auto. split; [|lia]. subst u. eapply sfx_trans; [exact HT|apply skipn_sfx].
Qed.
Lemma post_expect U T ch t : (exists a, T = a ++ t) -> post U (fun u => exists a, T = a ++ u) (expect ch t).
Proof.
  intros HT. destruct t as [|c t]; cbn; auto. destruct (ceq c ch); cbn; auto. eapply sfx_trans; [exact HT|]. exists [c]. reflexivity.
Qed.

Lemma number_loop_kind e : forall t v, post (fun u => u = SignedOverflow /\ wraps e = false) (fun r => snd r = scan isdigit t) (number_loop e v t).
Proof.
  induction t as [|c t IH]; intros v; cbn [number_loop scan]; [reflexivity|]. destruct (isdigit c); [|reflexivity].
  eapply post_bind; [apply post_acc10|]. intros v' _. eapply post_bind; [apply IH|]. intros [w n] H. cbn in *. congruence.
Qed.
Lemma post_number_loop e t : post (Uov e 19 t) (fun r => snd r = scan isdigit t) (number_loop e 0 t).
Proof.
  destruct (Nat.ltb_spec (scan isdigit t) 19) as [Hl|Hl].
  - pose proof (lead_small 18 t) as Hb. rewrite lead_len in Hb. specialize (Hb ltac:(lia)). change (10 ^ Z.of_nat 18)%Z with 1000000000000000000%Z in Hb.
    rewrite number_loop_exact; [reflexivity|lia|]. unfold decimal in Hb. unfold dec_from. lia.
  - pose proof (number_loop_kind e t 0) as H. destruct (number_loop e 0 t) as [[v u]| |x]; cbn in *; auto.
    destruct H as [-> H]. split; auto. split; auto. apply lead_long. rewrite lead_len. lia.
Qed.

(** milliseconds *)
Lemma div_loop_exact e : forall k d, (0 < d)%Z -> (d * 10 ^ Z.of_nat k < 2 ^ 31)%Z -> div_loop e k d = Ok (d * 10 ^ Z.of_nat k)%Z.
Proof.
  induction k as [|k IH]; intros d Hd Hb; cbn [div_loop]; [rewrite Z.mul_1_r; reflexivity|].
  rewrite Nat2Z.inj_succ, Z.pow_succ_r in * by lia.
  assert (0 < 10 ^ Z.of_nat k)%Z by (apply Z.pow_pos_nonneg; lia).
  rewrite sint_fits; [|unfold fits; change (32 - 1)%Z with 31%Z; nia]. cbn [bind]. rewrite IH by nia. f_equal. lia.
Qed.
Lemma ms_part_exact e sf prec : prec < 10 -> (0 <= sf < 10 ^ Z.of_nat prec)%Z ->
  exists ms, ms_part e sf prec = Ok ms.
Proof.
  intros Hp Hs. unfold ms_part. destruct prec as [|[|[|[|prec]]]]; [eexists; reflexivity| | |eexists; reflexivity|].
  - rewrite sint_fits; [eauto|]. change (10 ^ Z.of_nat 1)%Z with 10%Z in Hs. unfold fits. change (2 ^ (32 - 1))%Z with 2147483648%Z. lia.
  - rewrite sint_fits; [eauto|]. change (10 ^ Z.of_nat 2)%Z with 100%Z in Hs. unfold fits. change (2 ^ (32 - 1))%Z with 2147483648%Z. lia.
  - replace (Nat.ltb 3 (S (S (S (S prec))))) with true by reflexivity. cbn [Nat.sub].
    assert (10 ^ Z.of_nat (S prec) <= 10 ^ 6)%Z by (change (10 ^ 6)%Z with (10 ^ Z.of_nat 6)%Z; apply pow10_le; lia).
    rewrite div_loop_exact; [|lia|rewrite Z.mul_1_l; change (2 ^ 31)%Z with 2147483648%Z; change (10 ^ 6)%Z with 1000000%Z in *; lia].
    cbn [bind]. rewrite Z.mul_1_l.
    assert (0 < 10 ^ Z.of_nat (S prec))%Z by (apply Z.pow_pos_nonneg; lia).
    destruct (Z.eqb_spec (10 ^ Z.of_nat (S prec)) 0); [lia|].
    rewrite sint_fits; [eauto|].
    assert (0 <= sf ÷ 10 ^ Z.of_nat (S prec) <= sf)%Z.
    { rewrite Z.quot_div_nonneg by lia. split; [apply Z.div_pos; lia|]. apply Z.div_le_upper_bound; [lia|]. nia. }
    pose proof (pow10_le (S (S (S (S prec)))) 9 ltac:(lia)) as HP. change (10 ^ Z.of_nat 9)%Z with 1000000000%Z in HP.
    unfold fits. change (2 ^ (32 - 1))%Z with 2147483648%Z. lia.
Qed.
