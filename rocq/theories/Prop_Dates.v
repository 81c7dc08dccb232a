(** * Properties C24-C26: date-rfc3164, date-rfc5424 and their conversion to numbers.
    Specification: DateSpec.v. *)
From Verif Require Import Base Time Parsers BaseFacts FieldSpec DateSpec SafetySpec DateFacts Engine Pdag Samp TestEnv.

(** ** C24 date-rfc3164.  Unless ten digits stand in a row anywhere (C10), the field succeeds, taking n
    bytes and delivering v, if and only if the message starts with such a date. *)
Theorem C24_date_rfc3164 : forall e f want t, ~ long_run 10 t -> forall n v,
  parseRFC3164Date e f want t = Ok (n, v) <->
  exists pre post s, t = pre ++ post /\ n = List.length pre /\ rfc3164_text s pre post /\
    v = if want then date_value f pre (this_year e s) else JNull.
Proof. exact rfc3164_exact. Qed.
Print Assumptions C24_date_rfc3164.
Example C24_ex1 : parseRFC3164Date env0 FmtString true (L "Nov  8 00:50:01: x") = Ok (16, JStr (L "Nov  8 00:50:01:")).
Proof. vm_compute. reflexivity. Qed.
Example C24_ex2 : parseRFC3164Date env0 FmtTsUx true (L "nOV 18 2026 10:50:01 x") = Ok (20, JInt 1794999001).
Proof. vm_compute. reflexivity. Qed.
(** A year in the message is accepted and then not used: the number delivered is that of the current year. *)
Theorem C24_year_ignored_refuted :
  cur_year env0 = 2026%Z /\
  parseRFC3164Date env0 FmtTsUx true (L "Nov 18 1999 10:50:01") = parseRFC3164Date env0 FmtTsUx true (L "Nov 18 2026 10:50:01").
Proof. split; vm_compute; reflexivity. Qed.
Print Assumptions C24_year_ignored_refuted.
(** Days that do not exist and empty components are accepted. *)
Theorem C24_form_refuted :
  exists n m v, parseRFC3164Date env0 FmtTsUx true (L "Feb 31 ::") = Ok (n, v) /\ parseRFC3164Date env0 FmtTsUx true (L "Mar 3 0:0:0") = Ok (m, v).
Proof. exists 9, 11. eexists. split; vm_compute; reflexivity. Qed.
Print Assumptions C24_form_refuted.

(** ** C25 date-rfc5424 *)
Theorem C25_date_rfc5424 : forall e f want t, ~ long_run 10 t -> forall n v,
  parseRFC5424Date e f want t = Ok (n, v) <->
  exists pre post s, t = pre ++ post /\ n = List.length pre /\ rfc5424_text s pre /\ blank_or_end post /\
    v = if want then date_value f pre s else JNull.
Proof. exact rfc5424_exact. Qed.
Print Assumptions C25_date_rfc5424.
Example C25_ex1 : parseRFC5424Date env0 FmtString true (L "2026-11-18T00:50:01.25+01:00 x") = Ok (28, JStr (L "2026-11-18T00:50:01.25+01:00")).
Proof. vm_compute. reflexivity. Qed.
Example C25_ex2 : parseRFC5424Date env0 FmtTsUxMs true (L "2026-11-18T00:50:01.25+01:00 x") = Ok (28, JInt 1794959401250).
Proof. vm_compute. reflexivity. Qed.
(** RFC 5424 demands exactly four, two, two ... digits and existing days; the field does not. *)
Theorem C25_form_refuted :
  parseRFC5424Date env0 FmtString true (L "-1-1T::Z") = Ok (8, JStr (L "-1-1T::Z")) /\
  parseRFC5424Date env0 FmtString true (L "2026-02-31T00:00:00Z") = Ok (20, JStr (L "2026-02-31T00:00:00Z")) /\
  parseRFC5424Date env0 FmtString true (L "2026-000012-31T00:00:00Z") = Ok (24, JStr (L "2026-000012-31T00:00:00Z")).
Proof. split; [|split]; vm_compute; reflexivity. Qed.
Print Assumptions C25_form_refuted.
(** With ten or more digits in a row "in range" is meant modulo 2^32 (on a platform that wraps): month 4294967297 is
    January. *)
Theorem C25_range_refuted : exists e, wraps e = true /\
  parseRFC5424Date e FmtTsUx true (L "1970-4294967297-1T00:00:00Z") = Ok (27, JInt 0).
Proof.
  exists {| wraps := true; asserts_on := true; char_signed := true; cur_year := 2026; json_tok := tok0;
              json_show := fun _ => []; json_num := fun _ => 0%Z; json_erroff := fun _ => 0;
              unescape := fun t => t; files := fun _ => None |}.
  split; vm_compute; reflexivity.
Qed.
Print Assumptions C25_range_refuted.

(** ** C26 the number of seconds (format timestamp-unix) *)
Local Open Scope Z_scope.
(** For every time stamp of the years 1970 to 2100 a named date-rfc5424 field with format "timestamp-unix" delivers
    the seconds since the epoch, and with "timestamp-unix-ms" the milliseconds. *)
Theorem C26_timestamps : forall e pre s,
  rfc5424_text s pre -> ~ long_run 10 pre -> 1970 <= yr s <= 2100 ->
  parseRFC5424Date e FmtTsUx true pre =
    Ok (List.length pre,
        JInt (86400 * days_since_1970 (yr s) (mon s) (dom s) + 3600 * hr s + 60 * mnt s + sec s - east s)) /\
  parseRFC5424Date e FmtTsUxMs true pre =
    Ok (List.length pre,
        JInt (1000 * (86400 * days_since_1970 (yr s) (mon s) (dom s) + 3600 * hr s + 60 * mnt s + sec s - east s)
              + milliseconds s)).
Proof.
  intros e pre s HR HL HY.
  assert (HU : unix_seconds s = 86400 * days_since_1970 (yr s) (mon s) (dom s) + 3600 * hr s + 60 * mnt s + sec s - east s)
    by (unfold unix_seconds; replace ((1970 <=? yr s) && (yr s <=? 2100))%bool with true by lia; reflexivity).
  rewrite <- HU. split; apply (rfc5424_exact e _ true pre HL); exists pre, [], s; rewrite app_nil_r;
    (split; [reflexivity|split; [reflexivity|split; [exact HR|split; [left; reflexivity|]]]]); cbn [date_value]; f_equal; lia.
Qed.
Print Assumptions C26_timestamps.
(** The same for date-rfc3164: UTC, this year. *)
Theorem C26_timestamps_rfc3164 : forall e pre s,
  rfc3164_text s pre [] -> ~ long_run 10 pre -> 1970 <= cur_year e <= 2100 ->
  parseRFC3164Date e FmtTsUx true pre =
    Ok (List.length pre, JInt (86400 * days_since_1970 (cur_year e) (mon s) (dom s) + 3600 * hr s + 60 * mnt s + sec s)).
Proof.
  intros e pre s HR HL HY. apply (rfc3164_exact e _ true pre HL). exists pre, [], s. rewrite app_nil_r.
  split; [reflexivity|split; [reflexivity|split; [exact HR|]]]. cbn [date_value]. f_equal.
  unfold unix_seconds, this_year; cbn [yr mon dom hr mnt sec east]. replace ((1970 <=? cur_year e) && (cur_year e <=? 2100))%bool with true by lia. lia.
Qed.
Print Assumptions C26_timestamps_rfc3164.
(** [days_since_1970] counts days: the first day is 0, the next day of a month is one more, the first day of the next
    month follows the last day of this one, and the first day of the next year follows the 31st of December. *)
Theorem C26_days_count : forall y m d, 1970 <= y -> 1 <= m <= 12 ->
  days_since_1970 1970 1 1 = 0 /\
  days_since_1970 y m (d + 1) = days_since_1970 y m d + 1 /\
  (m < 12 -> days_since_1970 y (m + 1) 1 = days_since_1970 y m (days_in_month y m) + 1) /\
  days_since_1970 (y + 1) 1 1 = days_since_1970 y 12 31 + 1.
Proof.
  assert (S1 : forall n f a, sum_from f a (S n) = sum_from f a n + f (a + Z.of_nat n)).
  { induction n as [|n IH]; intros f a; [cbn [sum_from]; replace (a + Z.of_nat 0) with a by lia; lia|].
    change (sum_from f a (S (S n))) with (f a + sum_from f (a + 1) (S n)). rewrite IH.
    change (sum_from f a (S n)) with (f a + sum_from f (a + 1) n). replace (a + Z.of_nat (S n)) with (a + 1 + Z.of_nat n) by lia. lia. }
  intros y m d Hy Hm. split; [reflexivity|]. split; [unfold days_since_1970; lia|]. split.
  - intros Hm2. unfold days_since_1970. replace (Z.to_nat (m + 1 - 1)) with (S (Z.to_nat (m - 1))) by lia. rewrite S1.
    replace (1 + Z.of_nat (Z.to_nat (m - 1))) with m by lia. lia.
  - unfold days_since_1970. replace (Z.to_nat (y + 1 - 1970)) with (S (Z.to_nat (y - 1970))) by lia. rewrite S1.
    replace (1970 + Z.of_nat (Z.to_nat (y - 1970))) with y by lia.
    assert (HM : sum_from (days_in_month y) 1 11 = if leap y then 335 else 334)
      by (cbv -[leap Z.add]; destruct (leap y); reflexivity).
    change (Z.to_nat (1 - 1)) with O. change (Z.to_nat (12 - 1)) with 11%nat. rewrite HM. unfold days_in_year.
    cbn [sum_from]. destruct (leap y); lia.
Qed.
Print Assumptions C26_days_count.
(** Outside 1970..2100 the number delivered is 0 (or just the milliseconds). *)
Theorem C26_other_years : forall e pre s,
  rfc5424_text s pre -> ~ long_run 10 pre -> yr s < 1970 \/ 2100 < yr s ->
  parseRFC5424Date e FmtTsUx true pre = Ok (List.length pre, JInt 0).
Proof.
  intros e pre s HR HL HY. apply (rfc5424_exact e _ true pre HL). exists pre, [], s. rewrite app_nil_r.
  split; [reflexivity|split; [reflexivity|split; [exact HR|split; [left; reflexivity|]]]]. cbn [date_value]. f_equal.
  unfold unix_seconds. replace ((1970 <=? yr s) && (yr s <=? 2100))%bool with false by lia. reflexivity.
Qed.
Print Assumptions C26_other_years.
(** The hypotheses are met. *)
Example C26_ex : exists s, rfc5424_text s (L "2000-02-29T23:59:60-00:30") /\ ~ long_run 10 (L "2000-02-29T23:59:60-00:30") /\
  1970 <= yr s <= 2100 /\
  parseRFC5424Date env0 FmtTsUx true (L "2000-02-29T23:59:60-00:30") = Ok (25%nat, JInt 951870600).
Proof.
  exists {| yr := 2000; mon := 2; dom := 29; hr := 23; mnt := 59; sec := 60; frac := []; east := -1800 |}.
  assert (HN : forall ds, forallb isdigit ds = true -> all_digits ds).
  { intros ds H. rewrite forallb_forall in H. apply Forall_forall. intros c Hc. apply FieldFacts.isdigit_iff. auto. }
  split; [|split; [|split; [cbn; lia|vm_compute; reflexivity]]].
  - exists (L "2000"), (L "02"), (L "29"), (L "23"), (L "59"), (L "60"), [], (L "-00:30"). cbn [yr mon dom hr mnt sec frac east].
    split; [reflexivity|]. split; [apply HN; reflexivity|]. split; [reflexivity|].
    repeat match goal with |- numeral _ _ _ _ /\ _ => split; [split; [apply HN; reflexivity|split; [reflexivity|lia]]|] end.
    split; [left; auto|]. right. exists (L "00"), (L "30"), 0, 30.
    repeat match goal with |- numeral _ _ _ _ /\ _ => split; [split; [apply HN; reflexivity|split; [reflexivity|lia]]|] end.
    right. split; reflexivity.
  - intros (a & ds & b & H & HD & HLn).
    assert (HC : forall k, (k + 10 <= 25)%nat -> forallb isdigit (firstn 10 (skipn k (L "2000-02-29T23:59:60-00:30"))) = false).
    { intros k Hk. do 16 (destruct k as [|k]; [reflexivity|]). lia. }
    assert (Hk : (List.length a + 10 <= 25)%nat) by (apply (f_equal (@List.length ascii)) in H; rewrite !app_length in H; cbn [L list_ascii_of_string List.length] in H; lia).
    specialize (HC _ Hk). rewrite H in HC. rewrite FieldFacts.skipn_app_exact, <- HLn, FieldFacts.firstn_app_exact in HC.
    assert (forallb isdigit ds = true); [|congruence]. apply forallb_forall. intros c Hc. apply FieldFacts.isdigit_iff. eapply Forall_forall in HD; eauto.
Qed.
