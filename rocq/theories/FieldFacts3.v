(** * FieldFacts3: number, hexnumber, float, ipv4, kernel-timestamp, string-to. *)
From Verif Require Import Base Time Parsers BaseFacts FieldSpec FieldFacts FieldFacts2.
From Coq Require Import ZifyBool ZifyNat ZifyN.
Local Ltac Zify.zify_post_hook ::= Z.div_mod_to_equations.

(** ** C integers *)
Lemma wrap_fits w z : (0 < w)%Z -> fits w z = true -> wrap w z = z.
Proof.
  unfold fits, wrap. intros Hw H.
  assert (2 ^ w = 2 * 2 ^ (w - 1))%Z by (rewrite <- Z.pow_succ_r by lia; f_equal; lia).
  rewrite Z.mod_small; lia.
Qed.
Lemma wrap_range w z : (0 < w)%Z -> fits w (wrap w z) = true.
Proof.
  unfold fits, wrap. intros Hw.
  assert (2 ^ w = 2 * 2 ^ (w - 1))%Z by (rewrite <- Z.pow_succ_r by lia; f_equal; lia).
  assert (0 < 2 ^ (w - 1))%Z by (apply Z.pow_pos_nonneg; lia).
  pose proof (Z.mod_pos_bound (z + 2 ^ (w - 1)) (2 ^ w)). lia.
Qed.
Lemma wrap_eqm w a b : (0 <= w)%Z -> (a mod 2 ^ w = b mod 2 ^ w)%Z -> wrap w a = wrap w b.
Proof.
  unfold wrap. intros Hw H. assert (2 ^ w <> 0)%Z by (apply Z.pow_nonzero; lia).
  rewrite (Z.add_mod a), (Z.add_mod b), H by assumption. reflexivity.
Qed.
Lemma wrap_mod w z : (0 < w)%Z -> (wrap w z mod 2 ^ w = z mod 2 ^ w)%Z.
Proof.
  intros Hw. unfold wrap. assert (2 ^ w <> 0)%Z by (apply Z.pow_nonzero; lia).
  rewrite Zminus_mod_idemp_l. f_equal. lia.
Qed.
Lemma sint_wraps e w z : (0 < w)%Z -> wraps e = true -> sint e w z = Ok (wrap w z).
Proof.
  intros Hw He. unfold sint. destruct (fits w z) eqn:E.
  - rewrite wrap_fits; auto.
  - rewrite He. reflexivity.
Qed.
Lemma sint_fits e w z : fits w z = true -> sint e w z = Ok z.
Proof. unfold sint. intros ->. reflexivity. Qed.

Definition dec_from (v : Z) (ds : text) : Z := fold_left (fun v c => 10 * v + digit_value c)%Z ds v.

Lemma acc10_wraps e w v c : (0 < w)%Z -> wraps e = true -> acc10 e w v c = Ok (wrap w (10 * v + digit_value c)).
Proof.
  intros Hw He. unfold acc10. rewrite !sint_wraps by auto. cbn [bind]. rewrite sint_wraps by auto. cbn [bind].
  rewrite sint_wraps by auto. f_equal. apply wrap_eqm; [lia|]. rewrite digit_value_code.
  rewrite <- Zminus_mod_idemp_l, wrap_mod, Zminus_mod_idemp_l by auto.
  replace (wrap w (v * 10) + Z.of_N (code c) - 48)%Z with (wrap w (v * 10) + (Z.of_N (code c) - 48))%Z by lia.
  rewrite <- Z.add_mod_idemp_l, wrap_mod, Z.add_mod_idemp_l by (auto; apply Z.pow_nonzero; lia).
  f_equal. lia.
Qed.
Lemma acc10_exact e w v c : digit c -> (0 <= v)%Z -> (10 * v + digit_value c + 48 < 2 ^ (w - 1))%Z ->
  acc10 e w v c = Ok (10 * v + digit_value c)%Z.
Proof.
  intros Hc Hv Hb. pose proof (digit_value_range c Hc). rewrite digit_value_code in *.
  unfold acc10. rewrite sint_fits by (unfold fits; lia). cbn [bind].
  rewrite sint_fits by (unfold fits; lia). cbn [bind].
  rewrite sint_fits by (unfold fits; lia). f_equal. lia.
Qed.

Lemma dec_from_ge ds : all_digits ds -> forall v, (0 <= v)%Z -> (v <= dec_from v ds)%Z.
Proof.
  induction 1 as [|c ds Hc HF IH]; intros v Hv; cbn [dec_from fold_left]; [lia|].
  pose proof (digit_value_range c Hc). specialize (IH (10 * v + digit_value c)%Z). unfold dec_from in IH. lia.
Qed.

Lemma dec_from_wrap ds : forall w v v', (0 < w)%Z -> (v mod 2 ^ w = v' mod 2 ^ w)%Z ->
  wrap w (dec_from v ds) = wrap w (dec_from v' ds).
Proof.
  induction ds as [|c ds IH]; intros w v v' Hw H; cbn [dec_from fold_left].
  - apply wrap_eqm; [lia|auto].
  - apply IH; auto. assert (2 ^ w <> 0)%Z by (apply Z.pow_nonzero; lia).
    rewrite Z.add_mod, (Z.mul_mod 10 v), H by auto.
    rewrite (Z.add_mod (10 * v')), (Z.mul_mod 10 v') by auto. reflexivity.
Qed.

(** The leading run of digits. *)
Definition lead (t : text) : text := firstn (scan isdigit t) t.
Lemma lead_cons c t : isdigit c = true -> lead (c :: t) = c :: lead t.
Proof. unfold lead. cbn [scan]. intros ->. reflexivity. Qed.
Lemma lead_digits t : all_digits (lead t).
Proof.
  unfold lead, all_digits. destruct (scan_spec isdigit t) as [H _].
  eapply Forall_impl; [|exact H]. intros a. apply isdigit_iff.
Qed.

Lemma number_loop_wraps e : wraps e = true -> forall t v, fits 64 v = true ->
  number_loop e v t = Ok (wrap 64 (dec_from v (lead t)), scan isdigit t).
Proof.
  intros He. induction t as [|c t IH]; intros v Hv; cbn [number_loop].
  - cbn. rewrite wrap_fits by (auto; lia). reflexivity.
  - destruct (isdigit c) eqn:E.
    + rewrite acc10_wraps by (auto; lia). cbn [bind]. rewrite IH by (apply wrap_range; lia). cbn [bind].
      rewrite lead_cons by auto. cbn [scan dec_from fold_left]. rewrite E. f_equal. f_equal.
      apply dec_from_wrap; [lia|]. apply wrap_mod. lia.
    + unfold lead. cbn [scan]. rewrite E. cbn. rewrite wrap_fits by (auto; lia). reflexivity.
Qed.

Lemma number_loop_exact e : forall t v, (0 <= v)%Z -> (dec_from v (lead t) + 48 < 2 ^ 63)%Z ->
  number_loop e v t = Ok (dec_from v (lead t), scan isdigit t).
Proof.
  induction t as [|c t IH]; intros v Hv Hb; cbn [number_loop].
  - reflexivity.
  - destruct (isdigit c) eqn:E.
    + rewrite lead_cons in Hb by auto. rewrite lead_cons by auto. cbn [dec_from fold_left scan] in *. rewrite E.
      pose proof E as Hd. apply isdigit_iff in Hd. pose proof (digit_value_range c Hd).
      pose proof (dec_from_ge (lead t) (lead_digits t) (10 * v + digit_value c)%Z).
      fold (dec_from (10 * v + digit_value c) (lead t)) in Hb.
      rewrite acc10_exact; auto; [|change (64 - 1)%Z with 63%Z; lia].
      cbn [bind]. rewrite IH by lia. reflexivity.
    + unfold lead. cbn [scan]. rewrite E. reflexivity.
Qed.

Lemma takes_value_intro (b : bool) k (want : bool) (t : text) G (V : text -> json) :
  (b = true -> k <= List.length t) ->
  (forall pre post, t = pre ++ post -> (G pre post <-> b = true /\ List.length pre = k)) ->
  takes_value (if b then Ok (k, if want then V (firstn k t) else JNull) else Bad 0) want t G V.
Proof.
  intros Hle HG n v. split.
  - destruct b; [|discriminate]. intros [= <- <-].
    destruct (split_at t k (Hle eq_refl)) as (pre & post & -> & Hk).
    exists pre, post. split; [reflexivity|]. split; [auto|]. split; [apply HG; auto|].
    subst k. rewrite firstn_app_exact. reflexivity.
  - intros (pre & post & -> & -> & Hg & ->). destruct (HG pre post eq_refl) as [HG1 _].
    destruct (HG1 Hg) as [-> <-]. rewrite firstn_app_exact. reflexivity.
Qed.
Lemma takes_value_ext r r' want t G V : r = r' -> takes_value r' want t G V -> takes_value r want t G V.
Proof. intros ->. auto. Qed.

Lemma lead_app pre post : List.length pre = scan isdigit (pre ++ post) -> lead (pre ++ post) = pre.
Proof. intros H. unfold lead. rewrite <- H. apply firstn_app_exact. Qed.

(** The grammar with the code's 64 bit value [V] in the place of the decimal value. *)
Definition number_gen (V : text -> Z) (maxval : Z) (pre post : text) : Prop :=
  pre <> [] /\ max_run digit pre post /\ (0 < maxval -> V pre <= maxval)%Z.

Lemma number_gen_text (V : text -> Z) e mx want t :
  number_loop e 0 t = Ok (V (lead t), scan isdigit t) ->
  takes_text (parseNumber e FmtString mx want t) want t (number_gen V mx) /\
  takes_value (parseNumber e FmtNumber mx want t) want t (number_gen V mx) (fun p => JInt (V p)).
Proof.
  intros HL. unfold parseNumber. rewrite HL. cbn [bind is_string].
  set (b := (negb (Z.ltb 0 mx && Z.ltb mx (V (lead t))) && negb (Nat.eqb (scan isdigit t) 0))%bool).
  assert (HG : forall pre post, t = pre ++ post -> (number_gen V mx pre post <-> b = true /\ List.length pre = scan isdigit t)).
  { intros pre post ->. unfold number_gen. rewrite (max_run_scan _ _ isdigit_iff). subst b. split.
    - intros (H1 & H2 & H3). split; auto. rewrite lead_app, <- H2 by auto.
      apply len_nil in H1. rewrite H1. lia.
    - intros (H1 & H2). rewrite lead_app, <- H2 in H1 by auto. split; [apply len_nil; lia|]. split; [auto|lia]. }
  split.
  - eapply takes_text_ext with (r' := if b then ok_text want t (scan isdigit t) else Bad 0).
    + subst b. destruct (negb (_ && _)); cbn; destruct (Nat.eqb _ 0); reflexivity.
    + apply takes_text_intro; auto. intros _. apply scan_le.
  - eapply takes_value_ext with
      (r' := if b then Ok (scan isdigit t, if want then JInt (V (firstn (scan isdigit t) t)) else JNull) else Bad 0).
    + subst b. unfold lead. destruct (negb (_ && _)); cbn; destruct (Nat.eqb _ 0); reflexivity.
    + apply (takes_value_intro b _ want t _ (fun p => JInt (V p))); auto. intros _. apply scan_le.
Qed.

(** Numbers below 2^63 - 48: the documented behaviour. *)
Lemma number_exact e mx want t : (decimal (lead t) + 48 < 2 ^ 63)%Z ->
  takes_text (parseNumber e FmtString mx want t) want t (number_g mx) /\
  takes_value (parseNumber e FmtNumber mx want t) want t (number_g mx) (fun p => JInt (decimal p)).
Proof. intros H. apply (number_gen_text decimal). apply number_loop_exact; [lia|exact H]. Qed.

Lemma number_wraps e mx want t : wraps e = true ->
  takes_text (parseNumber e FmtString mx want t) want t (number_gen (fun p => wrap 64 (decimal p)) mx) /\
  takes_value (parseNumber e FmtNumber mx want t) want t (number_gen (fun p => wrap 64 (decimal p)) mx)
              (fun p => JInt (wrap 64 (decimal p))).
Proof. intros H. apply (number_gen_text (fun p => wrap 64 (decimal p))). apply number_loop_wraps; auto. Qed.

(** ** hexnumber *)
Definition hex_from (v : Z) (ds : text) : Z := fold_left (fun v c => 16 * v + hexdigit_value c)%Z ds v.
Lemma hex_from_mod ds : forall m v v', (m <> 0)%Z -> (v mod m = v' mod m)%Z ->
  (hex_from v ds mod m = hex_from v' ds mod m)%Z.
Proof.
  induction ds as [|c ds IH]; intros m v v' Hm H; cbn [hex_from fold_left]; auto.
  apply IH; auto. rewrite Z.add_mod, (Z.mul_mod 16 v), H by auto.
  rewrite (Z.add_mod (16 * v')), (Z.mul_mod 16 v') by auto. reflexivity.
Qed.
Lemma hex_loop_spec : forall t v, (0 <= v < 2 ^ 64)%Z ->
  hex_loop v t = (hex_from v (firstn (scan isxdigit t) t) mod 2 ^ 64, scan isxdigit t)%Z.
Proof.
  induction t as [|c t IH]; intros v Hv; cbn [hex_loop scan].
  - cbn. rewrite Z.mod_small; auto.
  - destruct (isxdigit c) eqn:E.
    + rewrite IH by (apply Z.mod_pos_bound; lia). cbn [firstn hex_from fold_left]. f_equal.
      apply hex_from_mod; [lia|]. rewrite Z.mod_mod by lia. rewrite hexval_eq by auto. f_equal. lia.
    + cbn. rewrite Z.mod_small; auto.
Qed.

Lemma wrap_mod_same z : wrap 64 (z mod 2 ^ 64) = wrap 64 z.
Proof. apply wrap_eqm; [lia|]. apply Z.mod_mod. lia. Qed.

Lemma hex_exact f mx want t :
  (f = FmtString -> takes_text (parseHexNumber f mx want t) want t (hex_g mx)) /\
  (f = FmtNumber -> takes_value (parseHexNumber f mx want t) want t (hex_g mx)
                     (fun p => JInt (wrap 64 (hexadecimal (skipn 2 p))))).
Proof.
  assert (HB : forall hs post, Forall hexdigit hs -> (exists c r, post = c :: r /\ space c) ->
     scan isxdigit (hs ++ post) = List.length hs).
  { intros hs post HF (c & r & -> & Hc). apply scan_app_stop.
    - eapply Forall_impl; [|exact HF]. intros a. apply isxdigit_iff.
    - destruct (isxdigit c) eqn:E; auto. apply isspace_iff in Hc.
      exfalso. revert c E Hc. intros c. destruct c as [[] [] [] [] [] [] [] []]; vm_compute; discriminate. }
  assert (Hmain : forall n v, parseHexNumber f mx want t = Ok (n, v) <->
     exists pre post, t = pre ++ post /\ n = List.length pre /\ hex_g mx pre post /\
       v = if is_string f then (if want then JStr pre else JNull)
           else (if want then JInt (wrap 64 (hexadecimal (skipn 2 pre))) else JNull)).
  { intros n v. unfold parseHexNumber, hex_g. split.
    - destruct t as [|a t']; [discriminate|]. cbn [rd nth_error bind]. destruct (ceq a "0") eqn:Ea; [|discriminate].
      destruct t' as [|b u]; [discriminate|]. cbn [rd nth_error bind]. unfold rd. cbn [nth_error bind].
      destruct (ceq b "x") eqn:Eb; [|discriminate]. cbn [skipn].
      rewrite hex_loop_spec by lia. cbn [Nat.add nth_error]. set (k := scan isxdigit u).
      apply ceq_true in Ea, Eb. subst a b.
      assert (Hk : k <= List.length u) by apply scan_le.
      destruct (nth_error u k) as [c|] eqn:En.
      2: { cbn [bind List.length]. destruct (Nat.eqb _ _); cbn; discriminate. }
      cbn [bind]. destruct (isspace c) eqn:Es; [|discriminate].
      destruct (negb _) eqn:Em; [|discriminate]. intros Hr.
      apply nth_error_split in En as (hs & r & Hu & Hhs).
      exists (L "0x" ++ hs), (c :: r). split; [rewrite Hu; reflexivity|].
      assert (Hn : n = S (S k) /\ v = (if is_string f then if want then JStr (firstn (S (S k)) ("0"%char :: "x"%char :: u)) else JNull
          else if want then JInt (wrap 64 (hex_from 0 (firstn k u) mod 2 ^ 64)) else JNull)).
      { destruct (is_string f); unfold ok_text, jsub in Hr; injection Hr as <- <-; auto. }
      destruct Hn as [-> ->]. split; [cbn; lia|].
      assert (Hf : firstn k u = hs) by (rewrite Hu, <- Hhs; apply firstn_app_exact).
      split.
      + exists hs. split; [reflexivity|]. split.
        { destruct (scan_spec isxdigit u) as [HF _]. fold k in HF. rewrite Hf in HF.
          eapply Forall_impl; [|exact HF]. intros x. apply isxdigit_iff. }
        split; [exists c, r; split; [reflexivity|apply isspace_iff; auto]|].
        rewrite Hf in Em. unfold hexadecimal. fold (hex_from 0 hs). lia.
      + cbn [firstn skipn L list_ascii_of_string app]. rewrite Hf, wrap_mod_same. reflexivity.
    - intros (pre & post & -> & -> & (hs & -> & HF & Hsp & Hm) & ->).
      pose proof (HB hs post HF Hsp) as HS. destruct Hsp as (c & r & -> & Hc).
      cbn [L list_ascii_of_string app rd nth_error bind]. rewrite ceq_refl. unfold rd. cbn [nth_error bind skipn].
      rewrite ceq_refl. rewrite hex_loop_spec by lia. rewrite HS. cbn [Nat.add nth_error].
      rewrite nth_error_app2, Nat.sub_diag by lia. cbn [nth_error bind]. apply isspace_iff in Hc. rewrite Hc.
      rewrite firstn_app_exact. unfold hexadecimal in Hm. fold (hex_from 0 hs) in Hm.
      replace (negb ((0 <? mx)%Z && (mx <? hex_from 0 hs mod 2 ^ 64)%Z)) with true by lia.
      unfold ok_text, jsub. cbn [firstn List.length]. rewrite firstn_app_exact.
      rewrite wrap_mod_same. unfold hexadecimal. fold (hex_from 0 hs). destruct (is_string f), want; reflexivity. }
  split; intros ->; intros n v; apply Hmain.
Qed.
