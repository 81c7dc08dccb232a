(** * ParserText: the text delivered is the text consumed. *)
From Verif Require Import Base Time Parsers BaseFacts FieldSpec SafetySpec FieldFacts FieldFacts2 FieldFacts3 FieldFacts4 FieldFacts5.

Definition is_text (want : bool) (t : text) (r : nat * json) : Prop := snd r = if want then JStr (firstn (fst r) t) else JNull.

Lemma text_from want t G r : takes_text r want t G -> post (fun _ => True) (is_text want t) r.
Proof.
  intros H. destruct r as [[n v]| |]; cbn; auto. destruct (H n v) as [H1 _]. destruct (H1 eq_refl) as (pre & pst & -> & -> & _ & ->).
  unfold is_text. cbn [fst snd]. rewrite firstn_app_exact. reflexivity.
Qed.
Lemma text_ok want t n : post (fun _ => True) (is_text want t) (ok_text want t n).
Proof. cbn. unfold is_text. destruct want; reflexivity. Qed.
Ltac tstep := lazymatch goal with
  | |- post _ _ (ok_text _ _ _) => apply text_ok
  | |- post _ _ (bind _ _) => apply (post_bind _ (fun _ => True)); [|intros; repeat match goal with x : _ * _ |- _ => destruct x end]
  | |- post _ _ (match ?x with _ => _ end) => destruct x
  | |- post _ (fun _ => True) ?r => destruct r; exact I
  | |- post _ _ (Bad _) => exact I
  | |- post _ _ (Ub _) => exact I
  | |- post _ _ (Ok _) => reflexivity
  | |- _ => progress cbv zeta
  end.
Lemma motif_text e m want offs t : text_field m = true -> post (fun _ => True) (is_text want t) (run_motif e m want offs t).
Proof.
  destruct m as [lit|f|f|f mx|f|f mx| | | | | | | | | | | | | | |s a| | | | |c| |s|s|s|cfg|ty]; cbn [text_field]; try discriminate; try (destruct f; try discriminate); intros _; cbn [run_motif].
  - unfold parseLiteral. repeat tstep.
  - unfold parseRFC3164Date. destruct t as [|a [|b [|c u0]]] eqn:Et; try exact I. rewrite <- Et. clear Et.
    destruct want; cbn [negb]; repeat tstep.
  - unfold parseRFC5424Date. destruct want; cbn [negb]; repeat tstep.
  - unfold parseNumber. cbn [is_string]. repeat tstep.
  - unfold parseFloat. cbn [is_string]. repeat tstep.
  - unfold parseHexNumber. cbn [is_string]. repeat tstep.
  - eapply text_from, kernel_ts_exact.
  - eapply text_from, whitespace_exact.
  - eapply text_from, ipv4_exact.
  - unfold parseIPv6. repeat tstep.
  - eapply text_from, word_exact.
  - eapply text_from, alpha_exact.
  - eapply text_from, rest_exact.
  - eapply text_from, quoted_exact.
  - eapply text_from, date_iso_exact.
  - eapply text_from, time24_exact.
  - eapply text_from, time12_exact.
  - eapply text_from, duration_exact.
  - eapply text_from, mac48_exact.
  - unfold parseStringTo. repeat tstep.
  - eapply text_from, char_to_exact.
  - eapply text_from, char_sep_exact.
Qed.
Lemma motif_text_value e m want offs t n v : text_field m = true -> run_motif e m want offs t = Ok (n, v) ->
  v = if want then JStr (firstn n t) else JNull.
Proof. intros H Hr. pose proof (motif_text e m want offs t H) as HP. rewrite Hr in HP. exact HP. Qed.
