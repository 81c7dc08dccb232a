(** * DateFacts: date-rfc3164, date-rfc5424 and the conversion to seconds. *)
From Verif Require Import Base Time Parsers BaseFacts FieldSpec DateSpec SafetySpec FieldFacts FieldFacts2 FieldFacts3 FieldFacts4 IntFacts.
From Coq Require Import ZifyBool ZifyNat ZifyN.

Lemma bind_ok {A B} (x : res A) (f : A -> res B) b : bind x f = Ok b <-> exists a, x = Ok a /\ f a = Ok b.
Proof.
  destruct x as [a| |]; cbn [bind]; split; try discriminate; try (intros (? & ? & ?); discriminate).
  - intros H. eauto.
  - intros (a' & [= <-] & H). exact H.
Qed.

(** ** Seconds *)
Local Open Scope Z_scope.
Definition year_secs (y : Z) : option Z := nth_error yearInSecs (Z.to_nat (y - 1967 - 1)).
Definition mid_of (y m : Z) : Z :=
  let mid := monthInDays m in
  if ((negb (Z.rem y 100 =? 0) && (Z.rem y 4 =? 0)) || (y =? 2000))%bool then (if m >? 2 then mid + 1 else mid) else mid.
Definition ym_ok (y m : Z) : bool :=
  match year_secs y with
  | None => false
  | Some s => (s + 1 + mid_of y m * 86400 =? 86400 * days_since_1970 y m 1)
  end.
Definition years : list Z := map (fun k => 1970 + Z.of_nat k) (seq 0 131).
Definition months : list Z := [1; 2; 3; 4; 5; 6; 7; 8; 9; 10; 11; 12].
Lemma years_ok : forallb (fun y => forallb (ym_ok y) months) years = true.
Proof. vm_compute. reflexivity. Qed.
Lemma in_years y : 1970 <= y <= 2100 -> In y years.
Proof. intros H. apply in_map_iff. exists (Z.to_nat (y - 1970)). split; [lia|]. apply in_seq. lia. Qed.
Lemma in_months m : 1 <= m <= 12 -> In m months.
Proof. intros H. unfold months. cbn [In]. lia. Qed.
Lemma time_exact y m d h i s oh om (ahead : bool) : 1 <= m <= 12 ->
  syslogTime2time_t y m d h i s oh om ahead =
  Ok (unix_seconds {| yr := y; mon := m; dom := d; hr := h; mnt := i; sec := s; frac := [];
                      east := (if ahead then 1 else -1) * (3600 * oh + 60 * om) |}).
Proof.
  intros Hm. unfold syslogTime2time_t, unix_seconds. cbn [yr mon dom hr mnt sec frac east].
  destruct ((y <? 1970) || (y >? 2100))%bool eqn:E.
  - replace ((1970 <=? y) && (y <=? 2100))%bool with false by lia. reflexivity.
  - replace ((1970 <=? y) && (y <=? 2100))%bool with true by lia.
    pose proof years_ok as HY. rewrite forallb_forall in HY. specialize (HY y (in_years y ltac:(lia))).
    rewrite forallb_forall in HY. specialize (HY m (in_months m Hm)). unfold ym_ok, year_secs in HY.
    destruct (nth_error yearInSecs (Z.to_nat (y - 1967 - 1))) as [ys|]; [|discriminate]. fold (mid_of y m).
    apply Z.eqb_eq in HY. f_equal. unfold days_since_1970 in *. destruct ahead; lia.
Qed.
Local Close Scope Z_scope.

(** ** Numerals *)
Lemma no_long_sfx k (T t a : text) : ~ long_run k T -> T = a ++ t -> ~ long_run k t.
Proof. intros H HT HL. apply H. eapply long_run_sfx; eauto. Qed.

Lemma int_spec e t v u : ~ long_run 10 t ->
  hParseInt e t = Ok (v, u) <-> exists ds, t = ds ++ u /\ all_digits ds /\ v = decimal ds /\ (forall c r, u = c :: r -> ~ digit c).
Proof.
  intros HL.
  assert (Hs : List.length (lead t) <= 9).
  { destruct (Nat.leb_spec (List.length (lead t)) 9); auto. exfalso. apply HL, lead_long. lia. }
  pose proof (lead_small 9 t Hs) as Hb. change (10 ^ Z.of_nat 9)%Z with 1000000000%Z in Hb.
  rewrite hParseInt_exact by lia. split.
  - intros H. assert (H1 : v = decimal (lead t)) by congruence. assert (H2 : u = skipn (scan isdigit t) t) by congruence.
    exists (lead t). split; [subst u; apply lead_split|]. split; [apply lead_digits|]. split; [exact H1|].
    intros c r Hu. rewrite H2 in Hu. pose proof (scan_spec isdigit t) as [_ HS]. rewrite Hu in HS. apply isdigit_not. exact HS.
  - intros (ds & -> & HD & -> & HS).
    assert (H0 : scan isdigit u = 0).
    { destruct u as [|c r]; [reflexivity|]. cbn [scan]. specialize (HS c r eq_refl). apply isdigit_not in HS. rewrite HS. reflexivity. }
    assert (HA : scan isdigit (ds ++ u) = List.length ds) by (rewrite scan_digits_app by exact HD; lia).
    rewrite HA, skipn_app_exact. rewrite lead_app by (symmetry; exact HA). reflexivity.
Qed.

Lemma intIn_spec e lo hi t v u : ~ long_run 10 t ->
  intIn e lo hi t = Ok (v, u) <-> exists ds, t = ds ++ u /\ numeral lo hi v ds /\ (forall c r, u = c :: r -> ~ digit c).
Proof.
  intros HL. unfold intIn. rewrite bind_ok. split.
  - intros ([w x] & H1 & H2). apply int_spec in H1; [|exact HL]. destruct H1 as (ds & Ht & HD & Hw & HS).
    destruct (_ || _)%bool eqn:E; [discriminate|]. injection H2 as <- <-. exists ds. split; [exact Ht|]. split; [|exact HS].
    split; [exact HD|]. split; [exact Hw|lia].
  - intros (ds & Ht & (HD & Hv & Hr) & HS). exists (v, u). split; [apply int_spec; eauto 6|].
    replace (_ || _)%bool with false by lia. reflexivity.
Qed.

Lemma nd_cons ch u : isdigit ch = false -> forall (c : ascii) (r : text), ch :: u = c :: r -> ~ digit c.
Proof. intros H c r [= <- <-]. apply isdigit_not. exact H. Qed.

Lemma dec_from_app v a b : dec_from v (a ++ b) = dec_from (dec_from v a) b.
Proof. apply fold_left_app. Qed.
Lemma decimal_app a b : all_digits b -> (decimal (a ++ b) = decimal a * 10 ^ Z.of_nat (List.length b) + decimal b)%Z.
Proof.
  intros H. unfold decimal. fold (dec_from 0 (a ++ b)) (dec_from 0 a) (dec_from 0 b). rewrite dec_from_app.
  assert (G : forall b v, (dec_from v b = v * 10 ^ Z.of_nat (List.length b) + dec_from 0 b)%Z).
  { clear. induction b as [|c b IH]; intros v; cbn [dec_from fold_left List.length]; [cbn; lia|].
    fold (dec_from (10 * v + digit_value c) b) (dec_from (10 * 0 + digit_value c) b). rewrite IH.
    rewrite (IH (10 * 0 + digit_value c)%Z). rewrite Nat2Z.inj_succ, Z.pow_succ_r by lia. lia. }
  apply G.
Qed.

(** ** Milliseconds *)
Lemma ms_exact e fr : all_digits fr -> List.length fr < 10 ->
  ms_part e (decimal fr) (List.length fr) = Ok (decimal (firstn 3 (fr ++ L "000"))).
Proof.
  intros HD HL. pose proof (decimal_bound fr HD) as Hb.
  destruct fr as [|a [|b [|c r]]]; cbn [List.length] in *.
  - reflexivity.
  - cbn [ms_part]. change (10 ^ Z.of_nat 1)%Z with 10%Z in Hb.
    rewrite sint_fits by (unfold fits; change (2 ^ (32 - 1))%Z with 2147483648%Z; lia).
    f_equal. change (firstn 3 ([a] ++ L "000")) with ([a] ++ L "00"). rewrite decimal_app by (apply Forall_forall; intros x Hx; cbn in Hx; destruct Hx as [<-|[<-|[]]]; cbn; auto).
    change (decimal (L "00")) with 0%Z. cbn [L list_ascii_of_string List.length]. change (10 ^ Z.of_nat 2)%Z with 100%Z. lia.
  - cbn [ms_part]. change (10 ^ Z.of_nat 2)%Z with 100%Z in Hb.
    rewrite sint_fits by (unfold fits; change (2 ^ (32 - 1))%Z with 2147483648%Z; lia).
    f_equal. change (firstn 3 ([a; b] ++ L "000")) with ([a; b] ++ L "0"). rewrite decimal_app by (apply Forall_forall; intros x Hx; cbn in Hx; destruct Hx as [<-|[]]; cbn; auto).
    change (decimal (L "0")) with 0%Z. cbn [L list_ascii_of_string List.length]. change (10 ^ Z.of_nat 1)%Z with 10%Z. lia.
  - change (firstn 3 ((a :: b :: c :: r) ++ L "000")) with [a; b; c]. unfold ms_part.
    destruct r as [|d r]; [reflexivity|].
    replace (Nat.ltb 3 (List.length (a :: b :: c :: d :: r))) with true by reflexivity. cbn [List.length Nat.sub].
    assert (Hl : List.length r <= 5) by (cbn [List.length] in HL; lia).
    assert (H6 : (10 ^ Z.of_nat (S (List.length r)) <= 1000000)%Z) by (change 1000000%Z with (10 ^ Z.of_nat 6)%Z; apply pow10_le; lia).
    assert (Hp : (0 < 10 ^ Z.of_nat (S (List.length r)))%Z) by (apply Z.pow_pos_nonneg; lia).
    rewrite div_loop_exact; [|lia|rewrite Z.mul_1_l; change (2 ^ 31)%Z with 2147483648%Z; lia].
    cbn [bind]. rewrite Z.mul_1_l. destruct (Z.eqb_spec (10 ^ Z.of_nat (S (List.length r))) 0); [lia|].
    assert (HD3 : all_digits [a; b; c] /\ all_digits (d :: r)).
    { change (a :: b :: c :: d :: r) with ([a; b; c] ++ d :: r) in HD. apply all_digits_app in HD. exact HD. }
    destruct HD3 as [HD1 HD2].
    change (a :: b :: c :: d :: r) with ([a; b; c] ++ d :: r). rewrite decimal_app by exact HD2.
    pose proof (decimal_bound _ HD1) as B1. pose proof (decimal_bound _ HD2) as B2. cbn [List.length] in B1, B2.
    change (10 ^ Z.of_nat 3)%Z with 1000%Z in B1. cbn [List.length].
    assert (Hq : ((decimal [a; b; c] * 10 ^ Z.of_nat (S (List.length r)) + decimal (d :: r)) ÷ 10 ^ Z.of_nat (S (List.length r)) = decimal [a; b; c])%Z).
    { rewrite Z.quot_div_nonneg by nia. rewrite Z.div_add_l by lia. rewrite Z.div_small by lia. lia. }
    rewrite Hq. rewrite sint_fits; [reflexivity|]. unfold fits. change (2 ^ (32 - 1))%Z with 2147483648%Z. lia.
Qed.

(** ** date-rfc5424 *)

Ltac nl T HL := (eapply (no_long_sfx 10 T); [exact HL|]).
Ltac sfx := cbn [L list_ascii_of_string app]; repeat (rewrite <- app_assoc; cbn [app]);
  first [reflexivity | instantiate (1 := []); reflexivity].

Definition frac_part (e : env) (u : text) : res (Z * nat * text) :=
    match u with
    | c :: u' => if ceq c "." then
                   let* (v, w) := hParseInt e u' in
                   Ok (v, List.length u' - List.length w, w)
                 else Ok (0%Z, 0, u)
    | [] => Ok (0%Z, 0, u)
    end.
Definition zone_part (e : env) (u : text) : res (Z * Z * bool * text) :=
    match u with
    | [] => Bad 0
    | c :: u' =>
        if ceq c "Z" then Ok (0%Z, 0%Z, true, u')
        else if (ceq c "+" || ceq c "-")%bool then
          let* (oh, w) := intIn e 0 23 u' in
          let* w := expect ":" w in
          let* (om, w) := intIn e 0 59 w in
          Ok (oh, om, ceq c "+", w)
        else Bad 0
    end.
Lemma frac_spec e u sf pr w : ~ long_run 10 u ->
  frac_part e u = Ok (sf, pr, w) <->
  exists fr fs, u = fs ++ w /\ fraction fr fs /\ sf = decimal fr /\ pr = List.length fr /\ all_digits fr /\
    (fs = [] -> forall c r, w = c :: r -> c <> "."%char) /\ (fs <> [] -> forall c r, w = c :: r -> ~ digit c).
Proof.
  intros HL. unfold frac_part. split.
  - destruct u as [|c u'].
    { intros [= <- <- <-]. exists [], []. split; [reflexivity|]. split; [left; auto|]. repeat split; auto; try constructor; try discriminate. }
    destruct (ceq c ".") eqn:E.
    + apply ceq_true in E. subst c. rewrite bind_ok. intros ([v x] & H1 & H2).
      apply int_spec in H1; [|eapply (no_long_sfx 10 _ u' ["."%char]); [exact HL|reflexivity]].
      destruct H1 as (ds & -> & HD & -> & HS). injection H2 as <- <- <-.
      exists ds, (L "." ++ ds). split; [cbn; reflexivity|]. split; [right; auto|]. split; [reflexivity|].
      split; [rewrite app_length; lia|]. split; [exact HD|]. split; [discriminate|]. intros _. exact HS.
    + apply ceq_false in E. intros [= <- <- <-]. exists [], []. split; [reflexivity|]. split; [left; auto|].
      split; [reflexivity|]. split; [reflexivity|]. split; [constructor|]. split; [intros _ x r [= <- <-]; exact E|congruence].
  - intros (fr & fs & -> & HF & -> & -> & HD & H1 & H2). destruct HF as [[-> ->]|[_ ->]].
    + cbn [app]. destruct w as [|c r]; [reflexivity|]. specialize (H1 eq_refl c r eq_refl).
      apply ceq_false in H1. rewrite H1. reflexivity.
    + cbn [L list_ascii_of_string app]. rewrite ceq_refl.
      assert (HI : hParseInt e (fr ++ w) = Ok (decimal fr, w)).
      { apply int_spec; [eapply (no_long_sfx 10 _ (fr ++ w) ["."%char]); [exact HL|reflexivity]|].
        exists fr. split; [reflexivity|]. split; [exact HD|]. split; [reflexivity|]. apply H2. discriminate. }
      rewrite HI. cbn [bind]. rewrite app_length. repeat f_equal. lia.
Qed.
Lemma zone_spec e u oh om ah w : ~ long_run 10 u -> (forall c r, w = c :: r -> ~ digit c) ->
  zone_part e u = Ok (oh, om, ah, w) <->
  exists zs, u = zs ++ w /\
    ((zs = L "Z" /\ oh = 0%Z /\ om = 0%Z /\ ah = true) \/
     exists hs ms, numeral 0 23 oh hs /\ numeral 0 59 om ms /\
       zs = (if ah then L "+" else L "-") ++ hs ++ L ":" ++ ms).
Proof.
  intros HL HW. unfold zone_part. split.
  - destruct u as [|c u']; [discriminate|]. destruct (ceq c "Z") eqn:E.
    + apply ceq_true in E. subst c. intros [= <- <- <- <-]. exists (L "Z"). split; [reflexivity|]. left. auto.
    + destruct (ceq c "+" || ceq c "-")%bool eqn:E2; [|discriminate].
      rewrite bind_ok. intros ([h x1] & H1 & H). cbv beta iota in H. rewrite bind_ok in H. destruct H as (x2 & H2 & H). rewrite bind_ok in H. destruct H as ([m x3] & H3 & H).
      apply expect_spec in H2. subst x1.
      apply intIn_spec in H1; [|eapply (no_long_sfx 10 _ u' [c]); [exact HL|reflexivity]]. destruct H1 as (hs & -> & Hh & _).
      apply intIn_spec in H3; [|eapply (no_long_sfx 10 _ x2 (c :: hs ++ [":"%char])); [exact HL|sfx]]. destruct H3 as (ms & -> & Hm & _).
      cbv beta iota in H.
      assert (HE : oh = h /\ om = m /\ ah = ceq c "+" /\ w = x3) by (repeat split; congruence). destruct HE as (-> & -> & -> & ->).
      exists (c :: hs ++ L ":" ++ ms). split; [sfx|]. right. exists hs, ms. split; [exact Hh|]. split; [exact Hm|].
      destruct (ceq c "+") eqn:E3.
      * apply ceq_true in E3. subst c. reflexivity.
      * cbn [orb] in E2. apply ceq_true in E2. subst c. reflexivity.
  - intros (zs & -> & [(-> & -> & -> & ->)|(hs & ms & Hh & Hm & ->)]); [reflexivity|].
    assert (Hu : exists c, (c = "+"%char /\ ah = true \/ c = "-"%char /\ ah = false) /\
       ((if ah then L "+" else L "-") ++ hs ++ L ":" ++ ms) ++ w = c :: hs ++ ":"%char :: ms ++ w).
    { destruct ah; [exists "+"%char|exists "-"%char]; (split; [auto|]); sfx. }
    destruct Hu as (c & Hc & Hu). rewrite Hu in *.
    assert (HI : intIn e 0 23 (hs ++ ":"%char :: ms ++ w) = Ok (oh, ":"%char :: ms ++ w)).
    { apply intIn_spec; [eapply (no_long_sfx 10 _ _ [c]); [exact HL|reflexivity]|]. exists hs. split; [reflexivity|]. split; [exact Hh|]. apply nd_cons. reflexivity. }
    assert (HJ : intIn e 0 59 (ms ++ w) = Ok (om, w)).
    { apply intIn_spec; [eapply (no_long_sfx 10 _ _ (c :: hs ++ [":"%char])); [exact HL|sfx]|]. exists ms. auto. }
    destruct Hc as [[-> ->]|[-> ->]]; cbn [ceq Ascii.eqb Bool.eqb orb]; rewrite HI; cbn [bind expect]; rewrite ceq_refl; cbn [bind]; rewrite HJ; reflexivity.
Qed.

Lemma rfc5424_unfold e f want t : parseRFC5424Date e f want t =
  (let* (year, u) := hParseInt e t in
  let* u := expect "-" u in
  let* (month, u) := intIn e 1 12 u in
  let* u := expect "-" u in
  let* (day, u) := intIn e 1 31 u in
  let* u := expect "T" u in
  let* (hour, u) := intIn e 0 23 u in
  let* u := expect ":" u in
  let* (minute, u) := intIn e 0 59 u in
  let* u := expect ":" u in
  let* (second, u) := intIn e 0 60 u in
  let* (secfrac, prec, u) := frac_part e u in
  let* (oh, om, ahead, u) := zone_part e u in
  check (match u with c :: _ => ceq c " " | [] => true end) ;;
  let n := List.length t - List.length u in
  if negb want then Ok (n, JNull)
  else match f with
       | FmtString => ok_text true t n
       | _ =>
           let* ts := syslogTime2time_t year month day hour minute second oh om ahead in
           match f with
           | FmtTsUxMs =>
               let* ms := ms_part e secfrac prec in
               Ok (n, JInt (ts * 1000 + ms)%Z)
           | _ => Ok (n, JInt ts)
           end
       end).
Proof. reflexivity. Qed.

Lemma blank_nd w : blank_or_end w -> forall c r, w = c :: r -> ~ digit c.
Proof. intros [->|[r ->]] c r' H; [discriminate|]. injection H as <- _. apply isdigit_not. reflexivity. Qed.
Lemma blank_b w : (match w with c :: _ => ceq c " " | [] => true end) = true <-> blank_or_end w.
Proof.
  destruct w as [|c w]; [split; [left; reflexivity|reflexivity]|]. rewrite ceq_true. split.
  - intros ->. right. exists w. reflexivity.
  - intros [H|[r H]]; [discriminate|]. injection H as -> _. reflexivity.
Qed.

Definition mk (y m d h i s : Z) (fr : text) (oh om : Z) (ah : bool) : stamp :=
  {| yr := y; mon := m; dom := d; hr := h; mnt := i; sec := s; frac := fr; east := ((if ah then 1 else -1) * (3600 * oh + 60 * om))%Z |}.

Definition tail5424 (e : env) (f : fmt) (want : bool) (t : text) (n : nat) year month day hour minute second secfrac prec oh om ahead : pres :=
  if negb want then Ok (n, JNull)
  else match f with
       | FmtString => ok_text true t n
       | _ =>
           let* ts := syslogTime2time_t year month day hour minute second oh om ahead in
           match f with
           | FmtTsUxMs =>
               let* ms := ms_part e secfrac prec in
               Ok (n, JInt (ts * 1000 + ms)%Z)
           | _ => Ok (n, JInt ts)
           end
       end.
Lemma tail_spec e f want t n y m d h i s fr oh om ah : (1 <= m <= 12)%Z -> all_digits fr -> List.length fr < 10 ->
  tail5424 e f want t n y m d h i s (decimal fr) (List.length fr) oh om ah =
  Ok (n, if want then date_value f (firstn n t) (mk y m d h i s fr oh om ah) else JNull).
Proof.
  intros Hm HD HL. unfold tail5424. destruct want; [|reflexivity]. cbn [negb].
  assert (Hu : unix_seconds {| yr := y; mon := m; dom := d; hr := h; mnt := i; sec := s; frac := [];
       east := (if ah then 1 else -1) * (3600 * oh + 60 * om) |} = unix_seconds (mk y m d h i s fr oh om ah)) by reflexivity.
  destruct f; [reflexivity| | |]; rewrite time_exact, Hu by exact Hm; cbn [bind date_value]; [reflexivity|reflexivity|].
  rewrite ms_exact by assumption. reflexivity.
Qed.

Lemma stamp_eq s y m d h i se fr ea : yr s = y -> mon s = m -> dom s = d -> hr s = h -> mnt s = i -> sec s = se -> frac s = fr -> east s = ea ->
  s = {| yr := y; mon := m; dom := d; hr := h; mnt := i; sec := se; frac := fr; east := ea |}.
Proof. destruct s. cbn. congruence. Qed.

Lemma run_short (T a fr b : text) : ~ long_run 10 T -> T = a ++ fr ++ b -> all_digits fr -> List.length fr < 10.
Proof.
  intros HL HT HD. destruct (Nat.ltb_spec (List.length fr) 10); auto. exfalso. apply HL.
  exists a, (firstn 10 fr), (skipn 10 fr ++ b). split; [rewrite HT, (app_assoc (firstn 10 fr)), (firstn_skipn 10 fr); reflexivity|].
  split; [|rewrite firstn_length; lia]. rewrite <- (firstn_skipn 10 fr) in HD. apply all_digits_app in HD. tauto.
Qed.

Lemma rfc5424_exact e f want t : ~ long_run 10 t -> forall n v,
  parseRFC5424Date e f want t = Ok (n, v) <->
  exists pre post s, t = pre ++ post /\ n = List.length pre /\ rfc5424_text s pre /\ blank_or_end post /\
    v = if want then date_value f pre s else JNull.
Proof.
  intros HL n v. rewrite rfc5424_unfold. split.
  - intros H. apply bind_ok in H. destruct H as ([y u1] & H1 & H). cbv beta iota in H. apply bind_ok in H. destruct H as (u2 & H2 & H).
    apply bind_ok in H. destruct H as ([m u3] & H3 & H). apply bind_ok in H. destruct H as (u4 & H4 & H).
    apply bind_ok in H. destruct H as ([d u5] & H5 & H). apply bind_ok in H. destruct H as (u6 & H6 & H).
    apply bind_ok in H. destruct H as ([h u7] & H7 & H). apply bind_ok in H. destruct H as (u8 & H8 & H).
    apply bind_ok in H. destruct H as ([i u9] & H9 & H). apply bind_ok in H. destruct H as (u10 & H10 & H).
    apply bind_ok in H. destruct H as ([s u11] & H11 & H). apply bind_ok in H. destruct H as ([[sf pr] u12] & H12 & H).
    apply bind_ok in H. destruct H as ([[[oh om] ah] w] & H13 & H).
    apply expect_spec in H2, H4, H6, H8, H10. subst u1 u3 u5 u7 u9.
    apply int_spec in H1; [|exact HL]. destruct H1 as (ys & -> & Hys & Hy & _).
    apply intIn_spec in H3; [|nl (ys ++ "-"%char :: u2) HL; instantiate (1 := ys ++ ["-"%char]); sfx]. destruct H3 as (ms & -> & Hm & _).
    apply intIn_spec in H5; [|nl (ys ++ "-"%char :: ms ++ "-"%char :: u4) HL; instantiate (1 := ys ++ ["-"%char] ++ ms ++ ["-"%char]); sfx]. destruct H5 as (ds & -> & Hd & _).
    apply intIn_spec in H7; [|nl (ys ++ "-"%char :: ms ++ "-"%char :: ds ++ "T"%char :: u6) HL; instantiate (1 := ys ++ ["-"%char] ++ ms ++ ["-"%char] ++ ds ++ ["T"%char]); sfx]. destruct H7 as (hs & -> & Hh & _).
    apply intIn_spec in H9; [|nl (ys ++ "-"%char :: ms ++ "-"%char :: ds ++ "T"%char :: hs ++ ":"%char :: u8) HL; instantiate (1 := ys ++ ["-"%char] ++ ms ++ ["-"%char] ++ ds ++ ["T"%char] ++ hs ++ [":"%char]); sfx]. destruct H9 as (is & -> & Hi & _).
    apply intIn_spec in H11; [|nl (ys ++ "-"%char :: ms ++ "-"%char :: ds ++ "T"%char :: hs ++ ":"%char :: is ++ ":"%char :: u10) HL; instantiate (1 := ys ++ ["-"%char] ++ ms ++ ["-"%char] ++ ds ++ ["T"%char] ++ hs ++ [":"%char] ++ is ++ [":"%char]); sfx]. destruct H11 as (ss & -> & Hs & _).
    apply frac_spec in H12; [|nl (ys ++ "-"%char :: ms ++ "-"%char :: ds ++ "T"%char :: hs ++ ":"%char :: is ++ ":"%char :: ss ++ u11) HL; instantiate (1 := ys ++ ["-"%char] ++ ms ++ ["-"%char] ++ ds ++ ["T"%char] ++ hs ++ [":"%char] ++ is ++ [":"%char] ++ ss); sfx].
    destruct H12 as (fr & fs & -> & Hf & -> & -> & Hfd & _ & _).
    destruct (match w with c :: _ => ceq c " " | [] => true end) eqn:EB; [|discriminate]. apply blank_b in EB.
    apply zone_spec in H13; [| |apply blank_nd; exact EB].
    2: { nl (ys ++ "-"%char :: ms ++ "-"%char :: ds ++ "T"%char :: hs ++ ":"%char :: is ++ ":"%char :: ss ++ fs ++ u12) HL; instantiate (1 := ys ++ ["-"%char] ++ ms ++ ["-"%char] ++ ds ++ ["T"%char] ++ hs ++ [":"%char] ++ is ++ [":"%char] ++ ss ++ fs); sfx. }
    destruct H13 as (zs & -> & Hz).
    cbv zeta in H. change (tail5424 e f want (ys ++ "-"%char :: ms ++ "-"%char :: ds ++ "T"%char :: hs ++ ":"%char :: is ++ ":"%char :: ss ++ fs ++ zs ++ w)
       (List.length (ys ++ "-"%char :: ms ++ "-"%char :: ds ++ "T"%char :: hs ++ ":"%char :: is ++ ":"%char :: ss ++ fs ++ zs ++ w) - List.length w) y m d h i s (decimal fr) (List.length fr) oh om ah = Ok (n, v)) in H.
    assert (Hlf : List.length fr < 10).
    { destruct Hf as [[-> ->]|[_ ->]]; [cbn; lia|].
      eapply (run_short _ (ys ++ "-"%char :: ms ++ "-"%char :: ds ++ "T"%char :: hs ++ ":"%char :: is ++ ":"%char :: ss ++ L ".") fr (zs ++ w)); [exact HL| |exact Hfd]. sfx. }
    rewrite tail_spec in H by (first [exact Hfd | exact Hlf | destruct Hm as (_ & _ & Hm); lia]).
    set (pre := ys ++ L "-" ++ ms ++ L "-" ++ ds ++ L "T" ++ hs ++ L ":" ++ is ++ L ":" ++ ss ++ fs ++ zs) in *.
    assert (HT : ys ++ "-"%char :: ms ++ "-"%char :: ds ++ "T"%char :: hs ++ ":"%char :: is ++ ":"%char :: ss ++ fs ++ zs ++ w = pre ++ w) by (unfold pre; sfx).
    rewrite HT in *. replace (List.length (pre ++ w) - List.length w) with (List.length pre) in H by (rewrite app_length; lia).
    rewrite firstn_app_exact in H.
    assert (Hn : n = List.length pre) by congruence. assert (Hv : v = if want then date_value f pre (mk y m d h i s fr oh om ah) else JNull) by congruence.
    exists pre, w, (mk y m d h i s fr oh om ah). split; [reflexivity|]. split; [exact Hn|]. split; [|split; [exact EB|exact Hv]].
    exists ys, ms, ds, hs, is, ss, fs, zs. cbn [yr mon dom hr mnt sec frac east mk]. split; [reflexivity|].
    split; [exact Hys|]. split; [exact Hy|]. split; [exact Hm|]. split; [exact Hd|]. split; [exact Hh|]. split; [exact Hi|]. split; [exact Hs|]. split; [exact Hf|].
    destruct Hz as [(-> & -> & -> & ->)|(zh & zm & Hzh & Hzm & ->)]; [left; split; reflexivity|right].
    exists zh, zm, oh, om. split; [exact Hzh|]. split; [exact Hzm|]. destruct ah; [left|right]; (split; [reflexivity|lia]).
  - intros (pre & post & st & Ht & Hn & HR & HB & Hv).
    destruct HR as (ys & ms & ds & hs & is & ss & fs & zs & Hpre & Hys & Hy & Hm & Hd & Hh & Hi & Hs & Hf & Hz).
    assert (HZ : exists oh om ah, east st = ((if ah : bool then 1 else -1) * (3600 * oh + 60 * om))%Z /\
       ((zs = L "Z" /\ oh = 0%Z /\ om = 0%Z /\ ah = true) \/
         exists hs ms, numeral 0 23 oh hs /\ numeral 0 59 om ms /\ zs = (if ah then L "+" else L "-") ++ hs ++ L ":" ++ ms)).
    { destruct Hz as [[-> Hz]|(zh & zm & oh & om & Hzh & Hzm & [[-> Hz]|[-> Hz]])].
      - exists 0%Z, 0%Z, true. split; [lia|]. left. auto.
      - exists oh, om, true. split; [lia|]. right. eauto.
      - exists oh, om, false. split; [lia|]. right. eauto. }
    clear Hz. destruct HZ as (oh & om & ah & He & Hz).
    assert (Hfd : all_digits (frac st)) by (destruct Hf as [[-> _]|[Hf _]]; [constructor|exact Hf]).
    assert (HT : t = ys ++ "-"%char :: ms ++ "-"%char :: ds ++ "T"%char :: hs ++ ":"%char :: is ++ ":"%char :: ss ++ fs ++ zs ++ post)
      by (rewrite Ht, Hpre; sfx).
    assert (Hfz : forall c r, fs ++ zs ++ post = c :: r -> ~ digit c).
    { intros c r. destruct Hf as [[_ ->]|[_ ->]]; [|intros H; injection H as <- _; apply isdigit_not; reflexivity].
      destruct Hz as [(-> & _)|(? & ? & _ & _ & ->)]; [|destruct ah]; intros H; injection H as <- _; apply isdigit_not; reflexivity. }
    assert (Hz0 : forall c r, zs ++ post = c :: r -> ~ digit c /\ c <> "."%char).
    { intros c r. destruct Hz as [(-> & _)|(? & ? & _ & _ & ->)]; [|destruct ah]; intros H; injection H as <- _;
        (split; [apply isdigit_not; reflexivity|discriminate]). }
    assert (H1 : hParseInt e t = Ok (yr st, "-"%char :: ms ++ "-"%char :: ds ++ "T"%char :: hs ++ ":"%char :: is ++ ":"%char :: ss ++ fs ++ zs ++ post)).
    { apply int_spec; [exact HL|]. exists ys. split; [exact HT|]. split; [exact Hys|]. split; [exact Hy|]. apply nd_cons. reflexivity. }
    rewrite H1. cbn [bind expect]. rewrite ceq_refl. cbn [bind]. rewrite HT in HL.
    rewrite (proj2 (intIn_spec e 1 12 (ms ++ "-"%char :: ds ++ "T"%char :: hs ++ ":"%char :: is ++ ":"%char :: ss ++ fs ++ zs ++ post) (mon st) ("-"%char :: ds ++ "T"%char :: hs ++ ":"%char :: is ++ ":"%char :: ss ++ fs ++ zs ++ post) ltac:(eapply no_long_sfx; [exact HL|]; instantiate (1 := ys ++ ["-"%char]); sfx)))
      by (exists ms; split; [reflexivity|split; [exact Hm|apply nd_cons; reflexivity]]).
    cbn [bind expect]. rewrite ceq_refl. cbn [bind].
    rewrite (proj2 (intIn_spec e 1 31 (ds ++ "T"%char :: hs ++ ":"%char :: is ++ ":"%char :: ss ++ fs ++ zs ++ post) (dom st) ("T"%char :: hs ++ ":"%char :: is ++ ":"%char :: ss ++ fs ++ zs ++ post) ltac:(eapply no_long_sfx; [exact HL|]; instantiate (1 := ys ++ ["-"%char] ++ ms ++ ["-"%char]); sfx)))
      by (exists ds; split; [reflexivity|split; [exact Hd|apply nd_cons; reflexivity]]).
    cbn [bind expect]. rewrite ceq_refl. cbn [bind].
    rewrite (proj2 (intIn_spec e 0 23 (hs ++ ":"%char :: is ++ ":"%char :: ss ++ fs ++ zs ++ post) (hr st) (":"%char :: is ++ ":"%char :: ss ++ fs ++ zs ++ post) ltac:(eapply no_long_sfx; [exact HL|]; instantiate (1 := ys ++ ["-"%char] ++ ms ++ ["-"%char] ++ ds ++ ["T"%char]); sfx)))
      by (exists hs; split; [reflexivity|split; [exact Hh|apply nd_cons; reflexivity]]).
    cbn [bind expect]. rewrite ceq_refl. cbn [bind].
    rewrite (proj2 (intIn_spec e 0 59 (is ++ ":"%char :: ss ++ fs ++ zs ++ post) (mnt st) (":"%char :: ss ++ fs ++ zs ++ post) ltac:(eapply no_long_sfx; [exact HL|]; instantiate (1 := ys ++ ["-"%char] ++ ms ++ ["-"%char] ++ ds ++ ["T"%char] ++ hs ++ [":"%char]); sfx)))
      by (exists is; split; [reflexivity|split; [exact Hi|apply nd_cons; reflexivity]]).
    cbn [bind expect]. rewrite ceq_refl. cbn [bind].
    rewrite (proj2 (intIn_spec e 0 60 (ss ++ fs ++ zs ++ post) (sec st) (fs ++ zs ++ post) ltac:(eapply no_long_sfx; [exact HL|]; instantiate (1 := ys ++ ["-"%char] ++ ms ++ ["-"%char] ++ ds ++ ["T"%char] ++ hs ++ [":"%char] ++ is ++ [":"%char]); sfx)))
      by (exists ss; split; [reflexivity|split; [exact Hs|exact Hfz]]).
    cbn [bind].
    rewrite (proj2 (frac_spec e (fs ++ zs ++ post) (decimal (frac st)) (List.length (frac st)) (zs ++ post) ltac:(eapply no_long_sfx; [exact HL|]; instantiate (1 := ys ++ ["-"%char] ++ ms ++ ["-"%char] ++ ds ++ ["T"%char] ++ hs ++ [":"%char] ++ is ++ [":"%char] ++ ss); sfx))).
    2: { exists (frac st), fs. split; [reflexivity|]. split; [exact Hf|]. split; [reflexivity|]. split; [reflexivity|]. split; [exact Hfd|].
         split; intros _ c r H; apply (Hz0 c r H). }
    cbn [bind].
    rewrite (proj2 (zone_spec e (zs ++ post) oh om ah post ltac:(eapply no_long_sfx; [exact HL|]; instantiate (1 := ys ++ ["-"%char] ++ ms ++ ["-"%char] ++ ds ++ ["T"%char] ++ hs ++ [":"%char] ++ is ++ [":"%char] ++ ss ++ fs); sfx) (blank_nd _ HB))).
    2: { exists zs. split; [reflexivity|exact Hz]. }
    cbn [bind]. rewrite (proj2 (blank_b post) HB). cbv zeta.
    change (tail5424 e f want t (List.length t - List.length post) (yr st) (mon st) (dom st) (hr st) (mnt st) (sec st) (decimal (frac st)) (List.length (frac st)) oh om ah = Ok (n, v)).
    assert (Hlf : List.length (frac st) < 10).
    { destruct Hf as [[-> _]|[_ Hfs]]; [cbn; lia|].
      eapply (run_short _ (ys ++ "-"%char :: ms ++ "-"%char :: ds ++ "T"%char :: hs ++ ":"%char :: is ++ ":"%char :: ss ++ L ".") (frac st) (zs ++ post)); [exact HL| |exact Hfd]. rewrite Hfs. sfx. }
    rewrite tail_spec by (first [exact Hfd | exact Hlf | destruct Hm as (_ & _ & Hm); lia]).
    replace (List.length t - List.length post) with (List.length pre) by (rewrite Ht, app_length; lia).
    rewrite Ht, firstn_app_exact. subst n v. f_equal. f_equal. destruct want; [|reflexivity]. f_equal.
    unfold mk. symmetry. apply stamp_eq; auto.
Qed.

(** ** date-rfc3164 *)
Lemma lower_sweep : forall c, tolower c = lower_of c. Proof. sweep. Qed.
Definition month_index (a b c : ascii) : option Z :=
  (fix go (k : Z) (l : list text) : option Z :=
     match l with [] => None | x :: r => if text_eqb x (map lower_of [a; b; c]) then Some k else go (k + 1)%Z r end) 1%Z month_names.
Lemma letter_lower l : In l (L "jfmasondeuplrybgctv") -> forall c, letter l c = ceq (lower_of c) l.
Proof.
  intros H. repeat (destruct H as [<-|H]; [sweep|]). destruct H.
Qed.
Lemma month3_index a b c : month3 a b c = month_index a b c.
Proof.
  unfold month3, month_index. cbn [month_names map L list_ascii_of_string text_eqb].
  rewrite !(letter_lower) by (cbn; intuition).
  generalize (lower_of a) (lower_of b) (lower_of c). clear. intros a b c. rewrite !andb_true_r.
  rewrite !(ceq_sym a), !(ceq_sym b), !(ceq_sym c).
  destruct (ceq "j" a) eqn:E1; [apply ceq_true in E1; subst a|].
  { destruct (ceq "a" b) eqn:F1; [apply ceq_true in F1; subst b; destruct (ceq "n" c); reflexivity|].
    destruct (ceq "u" b) eqn:F2; [apply ceq_true in F2; subst b|]; [|reflexivity].
    destruct (ceq "n" c); [reflexivity|]. destruct (ceq "l" c); reflexivity. }
  destruct (ceq "f" a) eqn:E2; [apply ceq_true in E2; subst a|].
  { destruct (ceq "e" b), (ceq "b" c); reflexivity. }
  destruct (ceq "m" a) eqn:E3; [apply ceq_true in E3; subst a|].
  { destruct (ceq "a" b), (ceq "r" c), (ceq "y" c); reflexivity. }
  destruct (ceq "a" a) eqn:E4; [apply ceq_true in E4; subst a|].
  { destruct (ceq "p" b) eqn:F1; [apply ceq_true in F1; subst b; destruct (ceq "r" c); reflexivity|].
    destruct (ceq "u" b), (ceq "g" c); reflexivity. }
  destruct (ceq "s" a) eqn:E5; [apply ceq_true in E5; subst a|].
  { destruct (ceq "e" b), (ceq "p" c); reflexivity. }
  destruct (ceq "o" a) eqn:E6; [apply ceq_true in E6; subst a|].
  { destruct (ceq "c" b), (ceq "t" c); reflexivity. }
  destruct (ceq "n" a) eqn:E7; [apply ceq_true in E7; subst a|].
  { destruct (ceq "o" b), (ceq "v" c); reflexivity. }
  destruct (ceq "d" a) eqn:E8; [apply ceq_true in E8; subst a|].
  { destruct (ceq "e" b), (ceq "c" c); reflexivity. }
  reflexivity.
Qed.
Lemma month3_spec a b c m : month3 a b c = Some m <-> month_name m [a; b; c].
Proof.
  rewrite month3_index. unfold month_index, month_name.
  assert (G : forall l k, (fix go (k : Z) (l : list text) : option Z :=
     match l with [] => None | x :: r => if text_eqb x (map lower_of [a; b; c]) then Some k else go (k + 1)%Z r end) k l = Some m <->
     exists i, nth_error l i = Some (map lower_of [a; b; c]) /\ m = (k + Z.of_nat i)%Z /\ (forall j, j < i -> nth_error l j <> Some (map lower_of [a; b; c]))).
  { induction l as [|x l IH]; intros k.
    - split; [discriminate|]. intros ([|i] & H & _); discriminate.
    - destruct (text_eqb x (map lower_of [a; b; c])) eqn:E.
      + apply text_eqb_true in E. split.
        * intros [= <-]. exists 0. split; [rewrite E; reflexivity|]. split; [lia|]. lia.
        * intros ([|i] & H1 & H2 & H3); [f_equal; lia|]. exfalso. apply (H3 0); [lia|]. rewrite E. reflexivity.
      + apply text_eqb_false in E. rewrite IH. split.
        * intros (i & H1 & H2 & H3). exists (S i). split; [exact H1|]. split; [lia|]. intros [|j] Hj; [intros HH; injection HH as HH; apply E; exact HH|]. apply H3. lia.
        * intros ([|i] & H1 & H2 & H3); [injection H1 as H1; exfalso; apply E; exact H1|]. exists i. split; [exact H1|]. split; [lia|].
          intros j Hj. apply (H3 (S j)). lia. }
  rewrite G. split.
  - intros (i & H1 & H2 & _). exists i. split; [exact H1|lia].
  - intros (i & H1 & H2). exists i. split; [exact H1|]. split; [lia|].
    intros j Hj H3. assert (ND : NoDup month_names).
    { vm_compute. repeat (constructor; [cbn [In]; intros HH; repeat (destruct HH as [HH|HH]; [discriminate|]); exact HH|]). constructor. }
    assert (i = j); [|lia]. apply (proj1 (NoDup_nth_error month_names) ND); [apply nth_error_Some; congruence|congruence].
Qed.
Lemma month_three m t : month_name m t -> exists a b c, t = [a; b; c] /\ month3 a b c = Some m /\ (1 <= m <= 12)%Z.
Proof.
  intros H. assert (Hm : (1 <= m <= 12)%Z).
  { destruct H as (k & H & ->). assert (k < List.length month_names) by (apply nth_error_Some; congruence). cbn in *. lia. }
  assert (HL : List.length t = 3).
  { destruct H as (k & H & _). apply nth_error_In in H. apply (f_equal (@List.length _)) in H as H2 || idtac.
    assert (forall x, In x month_names -> List.length x = 3) as H3 by (intros x Hx; cbn in Hx; repeat (destruct Hx as [<-|Hx]; [reflexivity|]); destruct Hx).
    specialize (H3 _ H). rewrite map_length in H3. exact H3. }
  destruct t as [|a [|b [|c [|d t]]]]; try discriminate. exists a, b, c. split; [reflexivity|]. split; [apply month3_spec; exact H|exact Hm].
Qed.

Definition hour_part (e : env) (u : text) : res (Z * text) :=
  let* (hour0, u) := hParseInt e u in
  let* (hour, u) :=
    if (Z.ltb 1970 hour0 && Z.ltb hour0 2100)%bool
    then let* u := expect " " u in hParseInt e u
    else Ok (hour0, u) in
  check (negb (Z.ltb hour 0 || Z.ltb 23 hour)) ;; Ok (hour, u).
Lemma hour_spec e t h u : ~ long_run 10 t -> 
  hour_part e t = Ok (h, u) <-> exists ye hs, t = ye ++ hs ++ u /\ (ye = [] \/ exists ys y, numeral 1971 2099 y ys /\ ye = ys ++ L " ") /\
     numeral 0 23 h hs /\ (forall c r, u = c :: r -> ~ digit c).
Proof.
  intros HL. unfold hour_part. split.
  - intros H. apply bind_ok in H. destruct H as ([h0 u0] & H0 & H). cbv beta iota in H.
    apply int_spec in H0; [|exact HL]. destruct H0 as (ds & -> & HD & Hv & HS).
    apply bind_ok in H. destruct H as ([h1 u1] & H1 & H). cbv beta iota in H.
    destruct (negb _) eqn:E; [|discriminate]. injection H as -> ->.
    destruct (_ && _)%bool eqn:E2.
    + apply bind_ok in H1. destruct H1 as (u2 & H2 & H1). apply expect_spec in H2. subst u0.
      apply int_spec in H1; [|eapply no_long_sfx; [exact HL|]; instantiate (1 := ds ++ [" "%char]); sfx]. destruct H1 as (hs & -> & HD1 & Hv1 & HS1).
      exists (ds ++ L " "), hs. split; [sfx|]. split; [right; exists ds, h0; split; [|reflexivity]; split; [exact HD|]; split; [exact Hv|lia]|].
      split; [|exact HS1]. split; [exact HD1|]. split; [exact Hv1|lia].
    + injection H1 as -> ->. exists [], ds. split; [reflexivity|]. split; [left; reflexivity|]. split; [|exact HS]. split; [exact HD|]. split; [exact Hv|lia].
  - intros (ye & hs & -> & HY & (HD & Hv & Hr) & HS). destruct HY as [->|(ys & y & (HDy & Hvy & Hry) & ->)].
    + cbn [app] in *. rewrite (proj2 (int_spec e (hs ++ u) h u HL)) by eauto. cbn [bind].
      replace (_ && _)%bool with false by lia. cbn [bind]. replace (negb _) with true by lia. reflexivity.
    + assert (HT : (ys ++ L " ") ++ hs ++ u = ys ++ " "%char :: hs ++ u) by sfx. rewrite HT in *.
      rewrite (proj2 (int_spec e _ y (" "%char :: hs ++ u) HL)).
      2: { exists ys. split; [reflexivity|]. split; [exact HDy|]. split; [exact Hvy|]. apply nd_cons. reflexivity. }
      cbn [bind]. replace (_ && _)%bool with true by lia. cbn [expect]. rewrite ceq_refl. cbn [bind].
      rewrite (proj2 (int_spec e (hs ++ u) h u ltac:(eapply no_long_sfx; [exact HL|]; instantiate (1 := ys ++ [" "%char]); sfx))) by eauto.
      cbn [bind]. replace (negb _) with true by lia. reflexivity.
Qed.

Definition date3164 (e : env) (f : fmt) (want : bool) (t : text) (month : Z) (u : text) : pres :=
  let* u := expect " " u in
  let* p := rd u 0 in
  let* (day, u) := intIn e 1 31 (if ceq p " " then skipn 1 u else u) in
  let* u := expect " " u in
  let* (hour, u) := hour_part e u in
  let* u := expect ":" u in
  let* (minute, u) := intIn e 0 59 u in
  let* u := expect ":" u in
  let* (second, u) := intIn e 0 60 u in
  let u := match u with c :: u' => if ceq c ":" then u' else u | [] => u end in
  let n := List.length t - List.length u in
  if negb want then Ok (n, JNull)
  else match f with
       | FmtString => ok_text true t n
       | _ =>
           let* ts := syslogTime2time_t (cur_year e) month day hour minute second 0 0 true in
           match f with
           | FmtTsUxMs => Ok (n, JInt (ts * 1000)%Z)
           | _ => Ok (n, JInt ts)
           end
       end.
Lemma rfc3164_unfold e f want t : parseRFC3164Date e f want t =
  match t with
  | a :: b :: c :: u => match month3 a b c with None => Bad 0 | Some month => date3164 e f want t month u end
  | _ => Bad 0
  end.
Proof.
  unfold parseRFC3164Date. destruct t as [|a [|b [|c u]]]; try reflexivity.
  destruct (month3 a b c); [|reflexivity]. unfold date3164, hour_part.
  destruct (expect " " u) as [u1| |]; try reflexivity. cbn [bind].
  destruct (rd u1 0) as [p| |]; try reflexivity. cbn [bind].
  destruct (intIn e 1 31 _) as [[day u2]| |]; try reflexivity. cbn [bind].
  destruct (expect " " u2) as [u3| |]; try reflexivity. cbn [bind].
  destruct (hParseInt e u3) as [[h0 u4]| |]; try reflexivity. cbn [bind].
  destruct (if (_ && _)%bool then _ else _) as [[h u5]| |]; try reflexivity. cbn [bind].
  destruct (negb _); reflexivity.
Qed.


Lemma milli0 s : frac s = [] -> milliseconds s = 0%Z.
Proof. unfold milliseconds. intros ->. reflexivity. Qed.
Lemma tail3164_spec (e : env) f (want : bool) (t : text) (n : nat) s : (1 <= mon s <= 12)%Z ->
  (if negb want then Ok (n, JNull)
  else match f with
       | FmtString => ok_text true t n
       | _ =>
           let* ts := syslogTime2time_t (cur_year e) (mon s) (dom s) (hr s) (mnt s) (sec s) 0 0 true in
           match f with
           | FmtTsUxMs => Ok (n, JInt (ts * 1000)%Z)
           | _ => Ok (n, JInt ts)
           end
       end) = Ok (n, if want then date_value f (firstn n t) (this_year e s) else JNull).
Proof.
  intros Hm. destruct want; [|reflexivity]. cbn [negb]. destruct f; [reflexivity| | |]; rewrite time_exact by exact Hm; cbn [bind date_value]; try reflexivity.
  rewrite milli0 by reflexivity. rewrite (Z.add_0_r (_ * 1000)). reflexivity.
Qed.

Lemma rfc3164_exact e f want t : ~ long_run 10 t -> forall n v,
  parseRFC3164Date e f want t = Ok (n, v) <->
  exists pre post s, t = pre ++ post /\ n = List.length pre /\ rfc3164_text s pre post /\
    v = if want then date_value f pre (this_year e s) else JNull.
Proof.
  intros HL n v. rewrite rfc3164_unfold. split.
  - destruct t as [|a [|b [|c u]]]; try discriminate. destruct (month3 a b c) as [m|] eqn:EM; [|discriminate].
    apply month3_spec in EM. intros H. unfold date3164 in H.
    apply bind_ok in H. destruct H as (u1 & H1 & H). apply expect_spec in H1. subst u.
    apply bind_ok in H. destruct H as (p & Hp & H).
    assert (HSP : exists sp u2, u1 = sp ++ u2 /\ (sp = [] \/ sp = L " ") /\ (if ceq p " " then skipn 1 u1 else u1) = u2).
    { destruct (ceq p " ") eqn:E; [|exists [], u1; auto]. apply ceq_true in E. subst p. destruct u1 as [|x u1]; [discriminate|].
      cbn in Hp. injection Hp as ->. exists (L " "), u1. auto. }
    destruct HSP as (sp & u2 & -> & Hsp & E2). 
    apply bind_ok in H. destruct H as ([d u3] & H3 & H). cbv beta iota in H.
    assert (H3' : intIn e 1 31 u2 = Ok (d, u3)) by (rewrite <- E2 at 1; exact H3). clear E2 Hp H3. rename H3' into H3.
    apply bind_ok in H. destruct H as (u4 & H4 & H). apply expect_spec in H4. subst u3.
    apply bind_ok in H. destruct H as ([h u5] & H5 & H). cbv beta iota in H.
    apply bind_ok in H. destruct H as (u6 & H6 & H). apply expect_spec in H6. subst u5.
    apply bind_ok in H. destruct H as ([i u7] & H7 & H). cbv beta iota in H.
    apply bind_ok in H. destruct H as (u8 & H8 & H). apply expect_spec in H8. subst u7.
    apply bind_ok in H. destruct H as ([s u9] & H9 & H). cbv beta iota in H.
    apply intIn_spec in H3; [|eapply no_long_sfx; [exact HL|]; instantiate (1 := [a; b; c; " "%char] ++ sp); sfx]. destruct H3 as (ds & -> & Hd & _).
    apply hour_spec in H5; [|eapply no_long_sfx; [exact HL|]; instantiate (1 := [a; b; c; " "%char] ++ sp ++ ds ++ [" "%char]); sfx]. destruct H5 as (ye & hs & -> & Hye & Hh & _).
    apply intIn_spec in H7; [|eapply no_long_sfx; [exact HL|]; instantiate (1 := [a; b; c; " "%char] ++ sp ++ ds ++ [" "%char] ++ ye ++ hs ++ [":"%char]); sfx]. destruct H7 as (is & -> & Hi & _).
    apply intIn_spec in H9; [|eapply no_long_sfx; [exact HL|]; instantiate (1 := [a; b; c; " "%char] ++ sp ++ ds ++ [" "%char] ++ ye ++ hs ++ [":"%char] ++ is ++ [":"%char]); sfx]. destruct H9 as (ss & -> & Hs & HE).
    assert (HCO : exists co w, u9 = co ++ w /\ ((co = L ":") \/ (co = [] /\ forall c r, w = c :: r -> ~ digit c /\ c <> ":"%char)) /\
      match u9 with c :: u' => if ceq c ":" then u' else u9 | [] => u9 end = w).
    { destruct u9 as [|x r]; [exists [], []; split; [reflexivity|]; split; [right; split; [reflexivity|discriminate]|reflexivity]|].
      destruct (ceq x ":") eqn:E.
      - apply ceq_true in E. subst x. exists (L ":"), r. auto.
      - exists [], (x :: r). split; [reflexivity|]. split; [|reflexivity]. right. split; [reflexivity|]. intros x' r' HX. split; [eapply HE; exact HX|]. injection HX as <- <-. apply ceq_false. exact E. }
    destruct HCO as (co & w & -> & Hco & EW). cbv zeta in H.
    set (st := {| yr := 0; mon := m; dom := d; hr := h; mnt := i; sec := s; frac := []; east := 0 |}).
    set (pre := [a; b; c] ++ L " " ++ sp ++ ds ++ L " " ++ ye ++ hs ++ L ":" ++ is ++ L ":" ++ ss ++ co).
    assert (HT : a :: b :: c :: " "%char :: sp ++ ds ++ " "%char :: ye ++ hs ++ ":"%char :: is ++ ":"%char :: ss ++ co ++ w = pre ++ w) by (unfold pre; sfx).
    rewrite HT in *. assert (EL : List.length (pre ++ w) - List.length (match co ++ w with c :: u' => if ceq c ":" then u' else co ++ w | [] => co ++ w end) = List.length pre) by (transitivity (List.length (pre ++ w) - List.length w); [f_equal; exact (f_equal (@List.length ascii) EW)|rewrite app_length; lia]).
    match type of H with context [List.length (pre ++ w) - ?X] => change (List.length (pre ++ w) - X) with (List.length (pre ++ w) - List.length (match co ++ w with c :: u' => if ceq c ":" then u' else co ++ w | [] => co ++ w end)) in H end.
    rewrite EL in H.
    pose proof (month_three m [a; b; c] EM) as (? & ? & ? & _ & _ & Hm).
    pose proof (tail3164_spec e f want (pre ++ w) (List.length pre) st Hm) as HS. cbn [st mon dom hr mnt sec] in HS. rewrite HS in H. rewrite firstn_app_exact in H.
    exists pre, w, st. split; [reflexivity|]. split; [congruence|]. split; [|congruence].
    exists [a; b; c], sp, ds, ye, hs, is, ss, co. cbn [st mon dom hr mnt sec]. split; [reflexivity|]. split; [exact EM|]. split; [exact Hsp|]. split; [exact Hd|]. split; [exact Hye|].
    split; [exact Hh|]. split; [exact Hi|]. split; [exact Hs|exact Hco].
  - intros (pre & post & st & Ht & Hn & HR & Hv).
    destruct HR as (mn & sp & ds & ye & hs & is & ss & co & Hpre & HM & Hsp & Hd & Hye & Hh & Hi & Hs & Hco).
    destruct (month_three _ _ HM) as (a & b & c & -> & EM & Hm).
    assert (HT : t = a :: b :: c :: " "%char :: sp ++ ds ++ " "%char :: ye ++ hs ++ ":"%char :: is ++ ":"%char :: ss ++ co ++ post) by (rewrite Ht, Hpre; sfx).
    rewrite HT at 1. rewrite EM. unfold date3164. cbn [expect]. rewrite ceq_refl. cbn [bind].
    assert (Hd0 : exists x r, ds = x :: r /\ isdigit x = true).
    { destruct Hd as (HD & Hv0 & Hr). destruct ds as [|x r]; [cbn in Hv0; lia|]. exists x, r. split; [reflexivity|]. apply isdigit_iff. inversion HD; auto. }
    destruct Hd0 as (x & r & Hds & Hx).
    assert (HP : exists p, rd (sp ++ ds ++ " "%char :: ye ++ hs ++ ":"%char :: is ++ ":"%char :: ss ++ co ++ post) 0 = Ok p /\
      (if ceq p " " then skipn 1 (sp ++ ds ++ " "%char :: ye ++ hs ++ ":"%char :: is ++ ":"%char :: ss ++ co ++ post) else (sp ++ ds ++ " "%char :: ye ++ hs ++ ":"%char :: is ++ ":"%char :: ss ++ co ++ post)) =
      ds ++ " "%char :: ye ++ hs ++ ":"%char :: is ++ ":"%char :: ss ++ co ++ post).
    { destruct Hsp as [->| ->].
      - exists x. subst ds. cbn [app]. split; [reflexivity|]. destruct (ceq x " ") eqn:E; [|reflexivity]. apply ceq_true in E. subst x. discriminate.
      - exists " "%char. split; reflexivity. }
    destruct HP as (p & HP & HP2). rewrite HP. cbn [bind].
    match goal with |- context [intIn e 1 31 ?X] => match type of HP2 with _ = ?Y => assert (HP3 : X = Y) by exact HP2 end end. rewrite HP3. clear HP HP2 HP3. rewrite HT in HL.
    rewrite (proj2 (intIn_spec e 1 31 (ds ++ " "%char :: ye ++ hs ++ ":"%char :: is ++ ":"%char :: ss ++ co ++ post) (dom st) (" "%char :: ye ++ hs ++ ":"%char :: is ++ ":"%char :: ss ++ co ++ post) ltac:(eapply no_long_sfx; [exact HL|]; instantiate (1 := [a; b; c; " "%char] ++ sp); sfx)))
      by (exists ds; split; [reflexivity|split; [exact Hd|apply nd_cons; reflexivity]]).
    cbn [bind expect]. rewrite ceq_refl. cbn [bind].
    rewrite (proj2 (hour_spec e (ye ++ hs ++ ":"%char :: is ++ ":"%char :: ss ++ co ++ post) (hr st) (":"%char :: is ++ ":"%char :: ss ++ co ++ post) ltac:(eapply no_long_sfx; [exact HL|]; instantiate (1 := [a; b; c; " "%char] ++ sp ++ ds ++ [" "%char]); sfx)))
      by (exists ye, hs; split; [reflexivity|split; [exact Hye|split; [exact Hh|apply nd_cons; reflexivity]]]).
    cbn [bind expect]. rewrite ceq_refl. cbn [bind].
    rewrite (proj2 (intIn_spec e 0 59 (is ++ ":"%char :: ss ++ co ++ post) (mnt st) (":"%char :: ss ++ co ++ post) ltac:(eapply no_long_sfx; [exact HL|]; instantiate (1 := [a; b; c; " "%char] ++ sp ++ ds ++ [" "%char] ++ ye ++ hs ++ [":"%char]); sfx)))
      by (exists is; split; [reflexivity|split; [exact Hi|apply nd_cons; reflexivity]]).
    cbn [bind expect]. rewrite ceq_refl. cbn [bind].
    rewrite (proj2 (intIn_spec e 0 60 (ss ++ co ++ post) (sec st) (co ++ post) ltac:(eapply no_long_sfx; [exact HL|]; instantiate (1 := [a; b; c; " "%char] ++ sp ++ ds ++ [" "%char] ++ ye ++ hs ++ [":"%char] ++ is ++ [":"%char]); sfx))).
    2: { exists ss. split; [reflexivity|]. split; [exact Hs|]. intros y q. destruct Hco as [->|[-> Hco]]; [intros HH; injection HH as <- _; apply isdigit_not; reflexivity|].
         intros HH. apply (Hco y q HH). }
    cbn [bind].
    assert (EW : match co ++ post with c :: u' => if ceq c ":" then u' else co ++ post | [] => co ++ post end = post).
    { destruct Hco as [->|[-> Hco]]; [reflexivity|]. cbn [app]. destruct post as [|y q]; [reflexivity|]. destruct (Hco y q eq_refl) as [_ Hy]. apply ceq_false in Hy. rewrite Hy. reflexivity. }
    cbv zeta. rewrite tail3164_spec by exact Hm.
    match goal with |- context [List.length t - ?X] => replace (List.length t - X) with (List.length pre) end.
    2: { transitivity (List.length t - List.length post); [rewrite Ht, app_length; lia|f_equal; symmetry; exact (f_equal (@List.length ascii) EW)]. }
    rewrite Ht, firstn_app_exact. congruence.
Qed.
