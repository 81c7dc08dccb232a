(** * ParserSafe: consumed length and absence of undefined behaviour for every field parser. *)
From Verif Require Import Base Time Parsers BaseFacts FieldSpec SafetySpec FieldFacts FieldFacts2 FieldFacts3 FieldFacts4 IntFacts.
From Coq Require Import ZifyBool ZifyNat ZifyN.

Definition Unone (u : ub) : Prop := False.

Definition len_ok (t : text) (r : nat * json) : Prop := fst r <= List.length t.

Lemma post_ok {A} U (P : A -> Prop) a : P a -> post U P (Ok a). Proof. auto. Qed.
Lemma post_bad {A} U (P : A -> Prop) k : post U P (Bad k : res A). Proof. exact I. Qed.
Lemma post_true {A} U (r : res A) (P : A -> Prop) : post U P r -> post U (fun _ => True) r.
Proof. destruct r; cbn; auto. Qed.

Lemma post_ok_text U want t n : n <= List.length t -> post U (len_ok t) (ok_text want t n).
Proof. intros H. exact H. Qed.

(** ** rfc5424 *)
Definition Udate (e : env) (f : fmt) (t : text) (u : ub) : Prop :=
  long_run 10 t /\ ((u = SignedOverflow /\ wraps e = false) \/ (f = FmtTsUxMs /\ u = DivZero)).

Lemma post_div_loop e k : forall d, post (fun u => u = SignedOverflow /\ wraps e = false) (fun _ => True) (div_loop e k d).
Proof.
  induction k as [|k IH]; intros d; cbn [div_loop]; [exact I|].
  eapply post_bind; [apply post_sint|]. intros a _. apply IH.
Qed.
Lemma post_ms_part e sf prec : post (fun u => (u = SignedOverflow /\ wraps e = false) \/ u = DivZero) (fun _ => True) (ms_part e sf prec).
Proof.
  assert (HS : forall z, post (fun u => (u = SignedOverflow /\ wraps e = false) \/ u = DivZero) (fun _ => True) (sint e 32 z))
    by (intros z; eapply post_monoU; [apply post_sint|auto]).
  unfold ms_part. destruct prec as [|[|[|prec]]]; auto.
  - exact I.
  - destruct (Nat.ltb _ _); [|exact I]. eapply post_bind; [eapply post_monoU; [apply post_div_loop|auto]|].
    intros d _. destruct (Z.eqb d 0); [right; reflexivity|]. apply HS.
Qed.

(** The table of years is large enough. *)
Lemma syslogTime_ok y mo d h mi s oh om ah :
  exists r, syslogTime2time_t y mo d h mi s oh om ah = Ok r.
Proof.
  unfold syslogTime2time_t. destruct (_ || _)%bool eqn:E; [eauto|].
  destruct (nth_error yearInSecs _) as [x|] eqn:En; [eauto|]. exfalso.
  apply nth_error_None in En. change (List.length yearInSecs) with 133 in En. lia.
Qed.

Lemma rfc5424_safe e f want t : post (Udate e f t) (len_ok t) (parseRFC5424Date e f want t).
Proof.
  assert (HI : forall lo hi u, (exists a, t = a ++ u) -> post (Udate e f t) (fun r => (exists a, t = a ++ snd r) /\ (lo <= fst r <= hi)%Z) (intIn e lo hi u))
    by (intros; eapply post_monoU; [apply post_intIn; assumption|intros x (? & ? & ?); split; auto]).
  assert (HP : forall u, (exists a, t = a ++ u) -> post (Udate e f t) (fun r => snd r = skipn (scan isdigit u) u /\ (scan isdigit u < 10 -> fst r = decimal (lead u))) (hParseInt e u))
    by (intros; eapply post_monoU; [apply post_hParseInt; eassumption|intros x (? & ? & ?); split; auto]).
  unfold parseRFC5424Date.
  eapply post_bind; [apply HP, sfx_refl|]. intros [year u1] [H1 _]. cbn [snd] in H1.
  assert (S1 : exists a, t = a ++ u1) by (subst u1; apply skipn_sfx).
  eapply post_bind; [apply (post_expect _ t); exact S1|]. intros u2 S2.
  eapply post_bind; [apply HI; exact S2|]. intros [month u3] [S3 Hmo]. cbn [snd] in S3.
  eapply post_bind; [apply (post_expect _ t); exact S3|]. intros u4 S4.
  eapply post_bind; [apply HI; exact S4|]. intros [day u5] [S5 Hda]. cbn [snd] in S5.
  eapply post_bind; [apply (post_expect _ t); exact S5|]. intros u6 S6.
  eapply post_bind; [apply HI; exact S6|]. intros [hour u7] [S7 Hho]. cbn [snd] in S7.
  eapply post_bind; [apply (post_expect _ t); exact S7|]. intros u8 S8.
  eapply post_bind; [apply HI; exact S8|]. intros [minute u9] [S9 Hmi]. cbn [snd] in S9.
  eapply post_bind; [apply (post_expect _ t); exact S9|]. intros u10 S10.
  eapply post_bind; [apply HI; exact S10|]. intros [second u11] [S11 Hse]. cbn [snd] in S11.
  eapply post_bind.
  { instantiate (1 := fun r => let '(sf, prec, u) := r in (exists a, t = a ++ u) /\
      ((prec < 10 /\ (0 <= sf < 10 ^ Z.of_nat prec)%Z) \/ long_run 10 t)).
    assert (Z0 : (0 <= 0 < 10 ^ Z.of_nat 0)%Z) by (cbn; lia).
    destruct u11 as [|c u']; [split; [exact S11|left; split; [lia|exact Z0]]|]. destruct (ceq c "."); [|split; [exact S11|left; split; [lia|exact Z0]]].
    assert (S12 : exists a, t = a ++ u') by (eapply sfx_trans; [exact S11|exists [c]; reflexivity]).
    eapply post_bind; [apply HP; exact S12|]. intros [v w] [Hw Hv]. cbn [fst snd] in *. subst w. cbn [post].
    split; [eapply sfx_trans; [exact S12|apply skipn_sfx]|].
    pose proof (scan_le isdigit u') as HS. rewrite skipn_length.
    replace (List.length u' - (List.length u' - scan isdigit u')) with (scan isdigit u') by lia.
    destruct (Nat.ltb_spec (scan isdigit u') 10) as [Hl|Hl].
    - left. split; auto. rewrite (Hv Hl). pose proof (decimal_bound _ (lead_digits u')) as HB. rewrite lead_len in HB. exact HB.
    - right. destruct S12 as [a Ha]. eapply long_run_sfx; [exact Ha|]. apply lead_long. rewrite lead_len. lia. }
  intros [[secfrac prec] u12] [S12 Hsf].
  eapply post_bind.
  { instantiate (1 := fun r => True). destruct u12 as [|c u']; [exact I|]. destruct (ceq c "Z"); [exact I|].
    assert (S13 : exists a, t = a ++ u') by (eapply sfx_trans; [exact S12|exists [c]; reflexivity]).
    destruct (_ || _)%bool; [|exact I]. eapply post_bind; [apply HI; exact S13|]. intros [oh w] [S14 _].
    eapply post_bind; [apply (post_expect _ t); exact S14|]. intros w' S15. eapply post_bind; [apply HI; exact S15|]. intros [om w''] _. exact I. }
  intros [[[oh om] ahead] u13] _.
  apply post_check. intros _. destruct want; cbn [negb]; [|apply Nat.le_sub_l].
  destruct (syslogTime_ok year month day hour minute second oh om ahead) as [r ->]. cbn [bind].
  destruct f; try apply Nat.le_sub_l.
  destruct Hsf as [[Hp Hsf]|HL].
  - destruct (ms_part_exact e secfrac prec Hp Hsf) as [ms ->]. apply Nat.le_sub_l.
  - eapply post_bind; [eapply post_monoU; [apply post_ms_part|]|].
    + intros u [H|H]; split; auto.
    + intros ms _. apply Nat.le_sub_l.
Qed.

Lemma rfc3164_safe e f want t : post (Uov e 10 t) (len_ok t) (parseRFC3164Date e f want t).
Proof.
  unfold parseRFC3164Date. destruct t as [|a [|b [|c u0]]] eqn:Et; try exact I. rewrite <- Et. destruct (month3 a b c) as [month|]; [|exact I].
  assert (S0 : exists x, t = x ++ u0) by (exists [a; b; c]; exact Et). clear Et.
  eapply post_bind; [apply (post_expect _ t); exact S0|]. intros u1 S1.
  eapply post_bind; [apply post_rd; lia|]. intros p _.
  set (u2 := if ceq p " " then skipn 1 u1 else u1).
  assert (S2 : exists x, t = x ++ u2).
  { eapply sfx_trans; [exact S1|]. subst u2. destruct (ceq p " "); [apply skipn_sfx|apply sfx_refl]. }
  clearbody u2.
  eapply post_bind; [apply post_intIn; exact S2|]. intros [day u3] [S3 _].
  eapply post_bind; [apply (post_expect _ t); exact S3|]. intros u4 S4.
  eapply post_bind; [apply post_hParseInt; exact S4|]. intros [hour0 u5] [H5 _]. cbn [snd] in H5.
  assert (S5 : exists x, t = x ++ u5) by (subst u5; eapply sfx_trans; [exact S4|apply skipn_sfx]).
  eapply post_bind.
  { instantiate (1 := fun r => exists x, t = x ++ snd r). destruct (_ && _)%bool; [|exact S5].
    eapply post_bind; [apply (post_expect _ t); exact S5|]. intros u6 S6.
    eapply post_mono; [apply post_hParseInt; exact S6|]. intros [v w] [Hw _]. cbn [snd] in *. subst w.
    eapply sfx_trans; [exact S6|apply skipn_sfx]. }
  intros [hour u7] S7. apply post_check. intros _. cbn [snd] in S7.
  eapply post_bind; [apply (post_expect _ t); exact S7|]. intros u8 S8.
  eapply post_bind; [apply post_intIn; exact S8|]. intros [minute u9] [S9 _].
  eapply post_bind; [apply (post_expect _ t); exact S9|]. intros u10 S10.
  eapply post_bind; [apply post_intIn; exact S10|]. intros [second u11] _.
  set (u12 := match u11 with [] => _ | _ => _ end). cbv zeta.
  destruct want; cbn [negb]; [|apply Nat.le_sub_l].
  destruct (syslogTime_ok (cur_year e) month day hour minute second 0 0 true) as [r ->]. cbn [bind].
  destruct f; apply Nat.le_sub_l.
Qed.

(** ** The rest, by type *)
Lemma number_safe e f mx want t : post (Uov e 19 t) (len_ok t) (parseNumber e f mx want t).
Proof.
  unfold parseNumber. eapply post_bind; [apply post_number_loop|]. intros [v n] H. cbn [snd] in H.
  assert (Hn : n <= List.length t) by (subst n; apply scan_le).
  apply post_check. intros _. apply post_check. intros _. destruct (is_string f); exact Hn.
Qed.

Lemma float_loop_le t : forall s, float_loop s t <= List.length t.
Proof.
  induction t as [|c t IH]; intros s; cbn [float_loop]; [lia|]. cbn [List.length].
  destruct (ceq c "."); [destruct s; [lia|]; specialize (IH true); lia|]. destruct (isdigit c); [specialize (IH s); lia|lia].
Qed.
Lemma float_safe U f want t : post U (len_ok t) (parseFloat f want t).
Proof.
  unfold parseFloat. eapply post_bind; [apply post_rd; lia|]. intros c Hc.
  apply post_check. intros _.
  assert (H : (if ceq c "-" then 1 else 0) + float_loop false (skipn (if ceq c "-" then 1 else 0) t) <= List.length t).
  { destruct (ceq c "-") eqn:E.
    - apply ceq_true in E. subst c. assert (0 < List.length t) by (eapply rd_lt; [exact Hc|discriminate]).
      pose proof (float_loop_le (skipn 1 t) false). rewrite skipn_length in *. lia.
    - pose proof (float_loop_le t false). cbn. lia. }
  destruct (is_string f); exact H.
Qed.

Lemma hex_loop_le t : forall v, snd (hex_loop v t) <= List.length t.
Proof.
  induction t as [|c t IH]; intros v; cbn [hex_loop]; [cbn; lia|]. destruct (isxdigit c); [|cbn; lia].
  match goal with |- context [hex_loop ?x t] => specialize (IH x); destruct (hex_loop x t) as [w n] end. cbn in *. lia.
Qed.
Lemma hex_safe U f mx want t : post U (len_ok t) (parseHexNumber f mx want t).
Proof.
  unfold parseHexNumber. eapply post_bind; [apply post_rd; lia|]. intros c0 H0.
  apply post_check. intros E0. apply ceq_true in E0. subst c0.
  assert (L0 : 0 < List.length t) by (eapply rd_lt; [exact H0|discriminate]).
  eapply post_bind; [apply post_rd; lia|]. intros c1 H1.
  apply post_check. intros E1. apply ceq_true in E1. subst c1.
  assert (L1 : 1 < List.length t) by (eapply rd_lt; [exact H1|discriminate]).
  pose proof (hex_loop_le (skipn 2 t) 0) as HL. destruct (hex_loop 0 (skipn 2 t)) as [v n]. cbn [snd] in HL.
  rewrite skipn_length in HL.
  eapply post_bind; [apply post_rd; lia|]. intros c _. apply post_check. intros _. apply post_check. intros _.
  destruct (is_string f); cbn; unfold len_ok; cbn; lia.
Qed.

(** reads of fixed positions that are all non-NUL tests *)
Lemma rdall_safe U (t : text) : forall ps i, i + List.length ps <= S (List.length t) ->
  post U (fun _ => True) (rdall t i ps).
Proof.
  induction ps as [|p ps IH]; intros i H; cbn [rdall]; [exact I|]. cbn [List.length] in H.
  eapply post_bind; [apply post_rd; lia|]. intros c _. apply post_check. intros _. apply IH. lia.
Qed.

Lemma takes_len r want t G : takes_text r want t G -> forall n v, r = Ok (n, v) -> n <= List.length t.
Proof. intros H n v Hr. apply H in Hr as (pre & post & -> & -> & _). rewrite app_length. lia. Qed.

(** from an exactness theorem and "no undefined behaviour" *)
Lemma safe_from U r want t G : takes_text r want t G -> post U (fun _ => True) r -> post U (len_ok t) r.
Proof.
  intros H HS. destruct r as [[n v]| |]; cbn in *; auto. unfold len_ok. cbn. eapply takes_len; eauto.
Qed.

Lemma kernel_safe U want t : post U (len_ok t) (parseKernelTimestamp want t).
Proof.
  eapply safe_from; [apply kernel_ts_exact|]. unfold parseKernelTimestamp.
  eapply post_bind; [apply post_rd; lia|]. intros c0 _. apply post_check. intros _. apply post_check. intros Hl.
  eapply post_bind; [apply rdall_safe; cbn; lia|]. intros _ _. apply post_check. intros Hi.
  eapply post_bind; [apply post_rd; lia|]. intros c _. apply post_check. intros _. apply post_check. intros Hn.
  eapply post_bind; [apply rdall_safe; cbn [List.length]; lia|]. intros _ _. exact I.
Qed.
Lemma whitespace_safe U want t : post U (len_ok t) (parseWhitespace want t).
Proof.
  eapply safe_from; [apply whitespace_exact|]. unfold parseWhitespace.
  eapply post_bind; [apply post_rd; lia|]. intros c _. apply post_check. intros _. exact I.
Qed.
Lemma word_safe U want t : post U (len_ok t) (parseWord want t).
Proof. eapply safe_from; [apply word_exact|]. unfold parseWord. apply post_check. intros _. exact I. Qed.
Lemma alpha_safe U want t : post U (len_ok t) (parseAlpha want t).
Proof. eapply safe_from; [apply alpha_exact|]. unfold parseAlpha. apply post_check. intros _. exact I. Qed.
Lemma rest_safe U want t : post U (len_ok t) (parseRest want t).
Proof. cbn. unfold len_ok. cbn. lia. Qed.
Lemma char_to_safe U s want t : post U (len_ok t) (parseCharTo s want t).
Proof. eapply safe_from; [apply char_to_exact|]. unfold parseCharTo. apply post_check. intros _. apply post_check. intros _. exact I. Qed.
Lemma char_sep_safe U s want t : post U (len_ok t) (parseCharSeparated s want t).
Proof. eapply safe_from; [apply char_sep_exact|]. exact I. Qed.

Lemma literal_safe U lit want t : ~ In NUL t -> post U (len_ok t) (parseLiteral lit want t).
Proof.
  intros Ht. unfold parseLiteral. destruct (literal_loop_spec lit t 0 Ht (Nat.le_0_l _)) as (k & -> & H1 & H2 & _).
  cbn [bind Nat.add] in *. unfold rdlit. destruct (nth_error lit k) as [l|] eqn:E.
  - cbn [bind]. destruct (ceq l NUL); [exact H1|exact I].
  - apply nth_error_None in E. replace (Nat.eqb k (List.length lit)) with true by (symmetry; apply Nat.eqb_eq; lia).
    cbn [bind]. rewrite ceq_refl. exact H1.
Qed.
Lemma literal_len lit want t n v : parseLiteral lit want t = Ok (n, v) -> n <= List.length t.
Proof.
  assert (H : forall t j k, literal_loop lit t j = Ok k -> j <= k <= j + List.length t).
  { induction t0 as [|c u IH]; intros j k; cbn [literal_loop].
    - intros [= <-]. cbn. lia.
    - destruct (rdlit lit j) as [l| |]; cbn [bind]; try discriminate. destruct (ceq l c).
      + intros Hk. apply IH in Hk. cbn. lia.
      + intros [= <-]. cbn. lia. }
  unfold parseLiteral. destruct (literal_loop lit t 0) as [j| |] eqn:E; try discriminate. cbn [bind].
  apply H in E. destruct (rdlit lit j) as [l| |]; try discriminate. cbn [bind]. destruct (ceq l NUL); [|discriminate].
  intros [= <- _]. lia.
Qed.

Lemma op_quoted_safe U t : post U (len_ok t) (parseOpQuotedString true t).
Proof.
  unfold parseOpQuotedString. eapply post_bind; [apply post_rd; lia|]. intros c Hc.
  destruct (ceq c """") eqn:E; cbn [negb].
  - apply ceq_true in E. subst c. assert (L0 : 0 < List.length t) by (eapply rd_lt; [exact Hc|discriminate]).
    pose proof (scan_le (fun c => negb (ceq c """")) (skipn 1 t)) as HS. rewrite skipn_length in HS.
    remember (scan (fun c => negb (ceq c """")) (skipn 1 t)) as k.
    apply post_check. intros Hne. eapply post_bind; [apply post_rd; lia|]. intros q Hq. apply post_check. intros Eq.
    unfold len_ok. cbn. lia.
  - apply post_check. intros _. cbn. unfold len_ok. cbn. apply scan_le.
Qed.
Lemma op_quoted_len want t n v : parseOpQuotedString want t = Ok (n, v) -> n <= List.length t.
Proof.
  destruct want.
  - intros H. pose proof (op_quoted_safe Unone t) as HS. rewrite H in HS. exact HS.
  - unfold parseOpQuotedString, store_op. destruct (rd t 0); cbn [bind]; try discriminate.
    destruct (negb _); [destruct (negb _); discriminate|]. destruct (negb _); [|discriminate].
    destruct (rd t _); cbn [bind]; try discriminate. destruct (ceq _ _); discriminate.
Qed.

Lemma quoted_safe U want t : post U (len_ok t) (parseQuotedString want t).
Proof.
  eapply safe_from; [apply quoted_exact|]. unfold parseQuotedString. apply post_check. intros Hl.
  eapply post_bind; [apply post_rd; lia|]. intros c _. apply post_check. intros _. apply post_check. intros Hi.
  pose proof (scan_le (fun c => negb (ceq c """")) (skipn 1 t)) as HS. rewrite skipn_length in HS.
  eapply post_bind; [apply post_rd; lia|]. intros q _. apply post_check. intros _. exact I.
Qed.
Lemma date_iso_safe U want t : post U (len_ok t) (parseISODate want t).
Proof.
  eapply safe_from; [apply date_iso_exact|]. unfold parseISODate. apply post_check. intros Hl.
  eapply post_bind; [apply rdall_safe; cbn; lia|]. intros _ _.
  do 2 (eapply post_bind; [apply post_rd; lia|]; intros ? _). apply post_check. intros _.
  eapply post_bind; [apply post_rd; lia|]; intros ? _. apply post_check. intros _.
  do 2 (eapply post_bind; [apply post_rd; lia|]; intros ? _). apply post_check. intros _. exact I.
Qed.
Lemma time24_safe U want t : post U (len_ok t) (parseTime24hr want t).
Proof.
  eapply safe_from; [apply time24_exact|]. unfold parseTime24hr. apply post_check. intros Hl.
  do 2 (eapply post_bind; [apply post_rd; lia|]; intros ? _). apply post_check. intros _.
  eapply post_bind; [apply rdall_safe; cbn; lia|]. intros _ _. exact I.
Qed.
Lemma time12_safe U want t : post U (len_ok t) (parseTime12hr want t).
Proof.
  eapply safe_from; [apply time12_exact|]. unfold parseTime12hr. apply post_check. intros Hl.
  do 2 (eapply post_bind; [apply post_rd; lia|]; intros ? _). apply post_check. intros _.
  eapply post_bind; [apply rdall_safe; cbn; lia|]. intros _ _. exact I.
Qed.
Lemma duration_safe U want t : post U (len_ok t) (parseDuration want t).
Proof.
  eapply safe_from; [apply duration_exact|]. unfold parseDuration.
  eapply post_bind; [apply post_rd; lia|]. intros c0 H0. apply post_check. intros E0.
  assert (L0 : 0 < List.length t) by (eapply rd_lt; [exact H0|apply isdigit_nz; auto]).
  eapply post_bind; [apply post_rd; lia|]. intros c1 H1.
  eapply post_bind.
  { apply post_rd. destruct (isdigit c1) eqn:E1; [|lia].
    assert (1 < List.length t) by (eapply rd_lt; [exact H1|apply isdigit_nz; auto]). lia. }
  intros c _. apply post_check. intros _. apply post_check. intros Hl.
  eapply post_bind; [apply rdall_safe; cbn [List.length]; lia|]. intros _ _. exact I.
Qed.
Lemma mac48_safe U want t : post U (len_ok t) (parseMAC48 want t).
Proof.
  eapply safe_from; [apply mac48_exact|]. unfold parseMAC48. apply post_check. intros Hl.
  eapply post_bind; [apply rdall_safe; cbn; lia|]. intros _ _.
  eapply post_bind; [apply post_rd; lia|]. intros d _. apply post_check. intros _.
  eapply post_bind; [apply rdall_safe; cbn; lia|]. intros _ _. exact I.
Qed.
Lemma chkIPv4_safe U t : post U (fun _ => True) (chkIPv4AddrByte t).
Proof.
  unfold chkIPv4AddrByte. destruct t as [|a t1]; [exact I|]. apply post_check. intros _.
  destruct (match t1 with [] => _ | _ => _ end) as [v u]. apply post_check. intros _. exact I.
Qed.
Lemma ipv4_safe U want t : post U (len_ok t) (parseIPv4 want t).
Proof.
  eapply safe_from; [apply ipv4_exact|]. unfold parseIPv4. apply post_check. intros _.
  do 3 (eapply post_bind; [apply chkIPv4_safe|]; intros ? _; eapply post_bind; [eapply post_expect, sfx_refl|]; intros ? _).
  eapply post_bind; [apply chkIPv4_safe|]. intros ? _. exact I.
Qed.

Lemma strto_outer_le toFind : forall u i, toFind <> [] ->
  post Unone (fun r => fst r <= i + List.length u) (strto_outer toFind u i).
Proof.
  intros u i Hne. revert i. induction u as [|c u IH]; intros i; cbn [strto_outer]; [cbn; lia|].
  eapply post_bind; [apply post_rd; lia|]. intros x _.
  destruct toFind as [|f0 tl]; [congruence|]. unfold rdlit. cbn [nth_error bind].
  destruct (_ && _)%bool; [cbn; lia|]. eapply post_mono; [apply IH|]. intros [a b]. cbn. lia.
Qed.
Lemma rdlit_nil : rdlit [] 0 = Ok NUL. Proof. reflexivity. Qed.
Lemma strto_outer_le_nil : forall u i, post Unone (fun r => fst r <= i + List.length u) (strto_outer [] u i).
Proof.
  induction u as [|c u IH]; intros i; cbn [strto_outer]; [cbn; lia|].
  eapply post_bind; [apply post_rd; lia|]. intros x _. rewrite rdlit_nil. cbn [bind skipn strto_inner].
  rewrite andb_false_r. eapply post_mono; [apply IH|]. intros [a b]. cbn. lia.
Qed.
Lemma string_to_safe U s want t : post U (len_ok t) (parseStringTo s want t).
Proof.
  apply (post_monoU Unone); [|intros u []]. unfold parseStringTo.
  eapply post_bind; [destruct s; [apply strto_outer_le_nil|apply strto_outer_le; discriminate]|].
  intros [i found] H. cbn in H. apply post_check. intros _. apply post_check. intros _. apply post_check. intros _. exact H.
Qed.

(** ** ipv6 *)
Lemma ipv6_loop_safe U t : forall j begin i nb had, i <= List.length t -> begin <= i ->
  post U (fun r => let '(b, i', nb', had', has4) := r in b <= i' /\ i' <= List.length t /\ i <= i' /\ (j = 0 \/ 0 < nb') /\ (0 < nb -> 0 < nb'))
    (ipv6_loop j t begin i nb had).
Proof.
  induction j as [|j IH]; intros begin i nb had Hi Hb; cbn [ipv6_loop]; [cbn; lia|].
  apply post_check. intros Hne.
  pose proof (scan_le isxdigit (firstn 4 (skipn i t))) as HS. rewrite firstn_length, skipn_length in HS.
  set (i' := i + scan isxdigit (firstn 4 (skipn i t))) in *.
  destruct (Nat.eqb_spec i' (List.length t)) as [He|He]; [cbn; lia|].
  eapply post_bind; [apply post_rd; lia|]. intros c Hc.
  destruct (isspace c); [cbn; lia|]. destruct (ceq c "."); [cbn; lia|].
  apply post_check. intros Ec. destruct (Nat.eqb_spec (S i') (List.length t)) as [He2|He2]; [cbn; lia|].
  eapply post_bind; [apply post_rd; lia|]. intros c2 _.
  destruct had.
  - apply post_check. intros _. eapply post_mono; [apply IH; lia|]. intros [[[[b x] n'] h'] h4]. lia.
  - destruct (ceq c2 ":").
    + destruct (Nat.eqb_spec (S (S i')) (List.length t)); [cbn; lia|]. eapply post_mono; [apply IH; lia|]. intros [[[[b x] n'] h'] h4]. lia.
    + eapply post_mono; [apply IH; lia|]. intros [[[[b x] n'] h'] h4]. lia.
Qed.

Lemma rd_back_safe U t i k : k <= i -> i <= List.length t + k ->
  post U (fun _ => True) (rd_back t i k).
Proof.
  intros H1 H2. unfold rd_back. destruct (Nat.ltb_spec i k); [lia|]. eapply post_true. apply post_rd. lia.
Qed.

Lemma ipv6_first_advance U t : forall j begin nb had c1, j > 0 -> (forall c, nth_error t 0 = Some c -> isxdigit c = true \/ (c = ":"%char /\ nth_error t 1 = Some c1 /\ c1 = ":"%char)) ->
  2 <= List.length t ->
  post U (fun r => let '(b, i', _, _, _) := r in 1 <= i' /\ (nth_error t (i' - 1) = Some ":"%char -> 2 <= i')) (ipv6_loop j t begin 0 nb had).
Proof.
  intros [|j] begin nb had c1 Hj Hf Hl; [lia|]. cbn [ipv6_loop]. apply post_check. intros _.
  destruct t as [|a [|b t]]; cbn in Hl; try lia.
  change (skipn 0 (a :: b :: t)) with (a :: b :: t).
  set (T := a :: b :: t) in *.
  pose proof (scan_le isxdigit (firstn 4 T)) as HS. rewrite firstn_length in HS.
  set (k := scan isxdigit (firstn 4 T)) in *. cbn [Nat.add].
  assert (Hk : (isxdigit a = true /\ 1 <= k) \/ (isxdigit a = false /\ k = 0)).
  { subst k T. cbn. destruct (isxdigit a); [left; split; [auto|lia]|right; auto]. }
  assert (Hcol : forall i, i < k -> nth_error T i <> Some ":"%char).
  { intros i Hlt HN. destruct (scan_spec isxdigit (firstn 4 T)) as [HF _]. fold k in HF.
    rewrite Forall_forall in HF.
    assert (Hin : In ":"%char (firstn k (firstn 4 T))).
    { rewrite firstn_firstn. apply nth_error_In with (n := i).
      rewrite <- (firstn_skipn (Nat.min k 4) T) in HN. rewrite nth_error_app1 in HN; [exact HN|]. rewrite firstn_length. lia. }
    specialize (HF _ Hin). discriminate. }
  assert (HT : List.length T = S (S (List.length t))) by reflexivity.
  clearbody k.
  destruct (Nat.eqb_spec k (List.length T)) as [He|He].
  { split; [lia|]. intros HN. destruct (Hcol (k - 1)); auto. lia. }
  eapply post_bind; [apply post_rd; lia|]. intros c Hc.
  destruct (isspace c) eqn:Esp.
  { destruct Hk as [[Hx Hk]|[Hx Hk]].
    - cbn. split; [lia|]. intros HN. destruct (Hcol (k - 1)); auto. lia.
    - exfalso. rewrite Hk in Hc. destruct Hc as [Hc|[Hc _]]; [|cbn in Hc; lia]. injection Hc as ->.
      destruct (Hf c eq_refl) as [Hd|[-> _]]; [congruence|discriminate]. }
  destruct (ceq c ".") eqn:Edot.
  { destruct Hk as [[Hx Hk]|[Hx Hk]].
    - cbn. split; [lia|]. intros HN. destruct (Hcol (k - 1)); auto. lia.
    - exfalso. rewrite Hk in Hc. destruct Hc as [Hc|[Hc _]]; [|cbn in Hc; lia]. injection Hc as ->.
      destruct (Hf c eq_refl) as [Hd|[-> _]]; [congruence|discriminate]. }
  apply post_check. intros Ecol. apply ceq_true in Ecol. subst c.
  destruct (Nat.eqb_spec (S k) (List.length T)) as [He2|He2].
  { cbn. split; [lia|]. cbn in He2. lia. }
  eapply post_bind; [apply post_rd; lia|]. intros c2 Hc2.
  destruct had.
  - apply post_check. intros E2.
    destruct Hk as [[Hx Hk]|[Hx Hk]].
    + eapply post_mono; [apply ipv6_loop_safe; lia|]. intros [[[[b' x] n'] h'] h4]. intros H. lia.
    + exfalso. rewrite Hk in Hc2. destruct (Hf a eq_refl) as [Hd|[-> [Hb1 ->]]]; [congruence|].
      destruct Hc2 as [Hc2|[Hc2 _]]; [|lia]. rewrite Hb1 in Hc2. injection Hc2 as <-. rewrite ceq_refl in E2. discriminate.
  - destruct (ceq c2 ":") eqn:E2.
    + destruct (Nat.eqb_spec (S (S k)) (List.length T)); [cbn; lia|]. eapply post_mono; [apply ipv6_loop_safe; lia|]. intros [[[[b' x] n'] h'] h4]. lia.
    + destruct Hk as [[Hx Hk]|[Hx Hk]].
      * eapply post_mono; [apply ipv6_loop_safe; lia|]. intros [[[[b' x] n'] h'] h4]. lia.
      * exfalso. rewrite Hk in Hc2. destruct (Hf a eq_refl) as [Hd|[-> [Hb1 ->]]]; [congruence|].
        destruct Hc2 as [Hc2|[Hc2 _]]; [|lia]. rewrite Hb1 in Hc2. injection Hc2 as <-. rewrite ceq_refl in E2. discriminate.
Qed.

Lemma post_and {A} U (P Q : A -> Prop) r : post U P r -> post U Q r -> post U (fun a => P a /\ Q a) r.
Proof. destruct r; cbn; auto. Qed.
Lemma post_eq {A} U (P : A -> Prop) r : post U P r -> post U (fun a => P a /\ r = Ok a) r.
Proof. destruct r; cbn; auto. Qed.

Lemma ipv6_safe U want t : post U (len_ok t) (parseIPv6 want t).
Proof.
  unfold parseIPv6. apply post_check. intros Hl.
  eapply post_bind; [apply post_rd; lia|]. intros c0 H0.
  assert (H0' : nth_error t 0 = Some c0) by (destruct H0 as [H0|[H0 _]]; [auto|lia]).
  eapply post_bind.
  { instantiate (1 := fun b => b = true -> isxdigit c0 = true \/ (c0 = ":"%char /\ nth_error t 1 = Some ":"%char)).
    destruct (isxdigit c0); [cbn; auto|]. destruct (ceq c0 ":") eqn:E; [|cbn; discriminate]. apply ceq_true in E.
    eapply post_bind; [apply post_rd; lia|]. intros c1 H1. cbn. intros E1. apply ceq_true in E1. subst c1. right. split; auto.
    destruct H1 as [H1|[H1 _]]; [auto|lia]. }
  intros first Hfst. apply post_check. intros ->. specialize (Hfst eq_refl).
  eapply post_bind.
  { apply post_and; [apply (ipv6_loop_safe U t 9 0 0 0 false); lia|].
    apply (ipv6_first_advance U t 9 0 0 false ":"%char); [lia| |lia]. intros c Hc. rewrite H0' in Hc. injection Hc as <-.
    destruct Hfst as [Hx|[Hx Hy]]; [left; auto|right; auto]. }
  intros [[[[begin i] nb] had] has4] [(Hb & Hi & _ & _ & _) [Hi1 Hi2]].
  eapply post_bind.
  { instantiate (1 := fun r => fst r <= List.length t /\ 1 <= fst r /\ (nth_error t (fst r - 1) = Some ":"%char -> 2 <= fst r)).
    destruct has4; [|cbn; auto]. apply post_check. intros Hbn.
    eapply post_bind; [apply post_eq, ipv4_safe|]. intros [len v] [Hlen Heq]. unfold len_ok in Hlen. cbn in Hlen |- *.
    rewrite skipn_length in Hlen. split; [lia|].
    apply ipv4_exact in Heq as (pre & pst & Hsk & Hlen' & (a & b & c & d & -> & Ha & Hbb & Hcc & Hd) & _).
    assert (7 <= len).
    { unfold octet in *. subst len. repeat (rewrite app_length; cbn). lia. }
    lia. }
  intros [i' nb'] (Hi' & Hi1' & Hi2'). cbn [fst] in *.
  apply post_check. intros _. apply post_check. intros _.
  eapply post_bind.
  { instantiate (1 := fun c => nth_error t (i' - 1) = Some c). unfold rd_back. destruct (Nat.ltb_spec i' 1); [lia|].
    eapply post_mono; [apply post_rd; lia|]. intros c [Hx|[Hx _]]; [auto|lia]. }
  intros c1 Hc1. eapply post_bind.
  { instantiate (1 := fun _ => True). destruct (ceq c1 ":") eqn:E; [|exact I]. apply ceq_true in E. subst c1.
    specialize (Hi2' Hc1). eapply post_bind; [apply rd_back_safe; lia|]. intros c2 _. exact I. }
  intros trail _. apply post_check. intros _. exact Hi'.
Qed.
