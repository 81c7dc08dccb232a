(** * FieldFacts2: fixed-format and numeric fields meet the grammars of FieldSpec.v. *)
From Verif Require Import Base Time Parsers BaseFacts FieldSpec FieldFacts.
From Coq Require Import ZifyBool ZifyNat ZifyN.

Ltac fsplit := repeat first [apply Forall_nil | apply Forall_cons].

(** ** Character arithmetic *)
Lemma code_inj a b : code a = code b -> a = b.
Proof. unfold code. intros H. rewrite <- (ascii_N_embedding a), <- (ascii_N_embedding b). congruence. Qed.
Lemma ceq_code a b : ceq a b = N.eqb (code a) (code b).
Proof.
  destruct (N.eqb_spec (code a) (code b)) as [H|H].
  - apply code_inj in H. subst. apply ceq_refl.
  - apply ceq_false. congruence.
Qed.
Lemma digit_code c : digit c <-> (48 <= code c <= 57)%N.
Proof. rewrite <- isdigit_iff. unfold isdigit, in_range. lia. Qed.
Lemma digit_value_code c : digit_value c = (Z.of_N (code c) - 48)%Z.
Proof. rewrite <- dval_eq. reflexivity. Qed.
Lemma digit_value_range c : digit c -> (0 <= digit_value c <= 9)%Z.
Proof. rewrite digit_code, digit_value_code. lia. Qed.

Ltac unlit :=
  repeat match goal with
  | |- context [code (Ascii ?a ?b ?c ?d ?e ?f ?g ?h)] =>
      let v := eval vm_compute in (code (Ascii a b c d e f g h)) in
      change (code (Ascii a b c d e f g h)) with v
  | H : context [code (Ascii ?a ?b ?c ?d ?e ?f ?g ?h)] |- _ =>
      let v := eval vm_compute in (code (Ascii a b c d e f g h)) in
      change (code (Ascii a b c d e f g h)) with v in H
  end.
Ltac codes := unfold isdigit, in_range in *; rewrite ?ceq_code in *; unlit.

Lemma num_in2 lo hi a b : num_in 2 lo hi [a; b] <->
  digit a /\ digit b /\ (lo <= 10 * digit_value a + digit_value b <= hi)%Z.
Proof.
  unfold num_in, all_digits, decimal. cbn [fold_left List.length]. split.
  - intros (_ & HF & H). inversion HF as [|? ? Ha HF1]; subst. inversion HF1; subst.
    split; [auto|]. split; [auto|]. lia.
  - intros (Ha & Hb & H). split; [reflexivity|]. split; [fsplit; auto|]. lia.
Qed.

Lemma two_list {A} (t : list A) : List.length t = 2 -> exists a b, t = [a; b].
Proof. destruct t as [|a [|b [|c t]]]; try discriminate. eauto. Qed.

Ltac arith2 := rewrite num_in2, !digit_code, !digit_value_code; codes.

Ltac ifs := repeat match goal with |- context [N.eqb ?x ?y] => destruct (N.eqb_spec x y); cbn [orb andb] end.
Lemma month_iff a b : (if ceq a "0" then in_range 49 57 b
   else if ceq a "1" then in_range 48 50 b else false) = true <-> num_in 2 1 12 [a; b].
Proof. arith2. ifs; lia. Qed.
Lemma day_iff a b : (if ceq a "0" then in_range 49 57 b
   else if (ceq a "1" || ceq a "2")%bool then isdigit b
   else if ceq a "3" then (ceq b "0" || ceq b "1")%bool else false) = true <-> num_in 2 1 31 [a; b].
Proof. arith2. ifs; lia. Qed.
Lemma hour24_iff a b : (if (ceq a "0" || ceq a "1")%bool then isdigit b
   else if ceq a "2" then in_range 48 51 b else false) = true <-> num_in 2 0 23 [a; b].
Proof. arith2. ifs; lia. Qed.
Lemma hour12_iff a b : (if ceq a "0" then isdigit b
   else if ceq a "1" then in_range 48 50 b else false) = true <-> num_in 2 0 12 [a; b].
Proof. arith2. ifs; lia. Qed.
Lemma sixty_iff a b : (in_range 48 53 a && isdigit b)%bool = true <-> num_in 2 0 59 [a; b].
Proof. arith2. ifs; lia. Qed.

Ltac chk H := match type of H with
  | (if ?b then _ else _) = _ => let E := fresh "E" in destruct b eqn:E; [|discriminate H]
  | bind (if ?b then _ else _) _ = _ => let E := fresh "E" in destruct b eqn:E; [|discriminate H]
  end; cbn [bind] in H.

Ltac eqchars := repeat match goal with E : ceq _ _ = true |- _ => apply ceq_true in E end; subst.

Lemma length_ge_cons {A} (n : nat) (t : list A) : S n <= List.length t ->
  exists c u, t = c :: u /\ n <= List.length u.
Proof. destruct t as [|c u]; cbn; [lia|]. intros H. exists c, u. split; auto. lia. Qed.

Ltac peel t H :=
  let c := fresh "c" in let u := fresh "u" in let H' := fresh "Hlen" in
  destruct (length_ge_cons _ _ H) as (c & u & -> & H'); clear H; rename H' into H; rename u into t.

Lemma minsec_shape a b c d : (in_range 48 53 a && isdigit b)%bool = true -> (in_range 48 53 c && isdigit d)%bool = true ->
  num_in 2 0 59 [a; b] /\ num_in 2 0 59 [c; d].
Proof. rewrite !sixty_iff. auto. Qed.

Lemma date_iso_exact want t : takes_text (parseISODate want t) want t date_iso_g.
Proof.
  intros n v. unfold parseISODate, date_iso_g. split.
  - destruct (Nat.ltb_spec (List.length t) 10) as [|H]; [discriminate|]. cbn [negb].
    do 10 peel t H. unfold rd. cbn [rdall rd nth_error bind]. intros Hr.
    do 8 chk Hr. unfold ok_text, jsub in Hr. cbn [firstn] in Hr. injection Hr as <- <-.
    apply month_iff in E4. apply day_iff in E6. eqchars.
    do 2 eexists. split; [|split; [|split; [|reflexivity]]]; [| |exists [c; c0; c1; c2], [c4; c5], [c7; c8]].
    + reflexivity.
    + reflexivity.
    + split; [reflexivity|]. split; [|auto]. split; [reflexivity|].
      fsplit; apply isdigit_iff; assumption.
  - intros (pre & post & -> & -> & (y & m & d & -> & (Hy & Hyd) & Hm & Hd) & ->).
    destruct y as [|y1 [|y2 [|y3 [|y4 [|]]]]]; try discriminate.
    destruct (two_list m) as (m1 & m2 & ->); [apply Hm|].
    destruct (two_list d) as (d1 & d2 & ->); [apply Hd|].
    apply month_iff in Hm. apply day_iff in Hd. cbn. 
    assert (isdigit y1 = true /\ isdigit y2 = true /\ isdigit y3 = true /\ isdigit y4 = true) as (-> & -> & -> & ->).
    { unfold all_digits in Hyd. rewrite !isdigit_iff. inversion Hyd as [|? ? ? H1]; subst.
      inversion H1 as [|? ? ? H2]; subst. inversion H2 as [|? ? ? H3]; subst. inversion H3; subst. auto. }
    unfold rd. cbn [nth_error bind]. rewrite Hm, Hd. reflexivity.
Qed.


Ltac give := do 2 eexists; split; [|split; [|split; [|reflexivity]]]; [reflexivity|reflexivity|].

Lemma time24_exact want t : takes_text (parseTime24hr want t) want t time24_g.
Proof.
  intros n v. unfold parseTime24hr, time24_g. split.
  - destruct (Nat.ltb_spec (List.length t) 8) as [|H]; [discriminate|]. cbn [negb].
    do 8 peel t H. unfold rd. cbn [rdall rd nth_error bind]. intros Hr.
    do 7 chk Hr. unfold ok_text, jsub in Hr. cbn [firstn] in Hr. injection Hr as <- <-.
    apply hour24_iff in E. eqchars. give. exists [c; c0], [c2; c3], [c5; c6].
    split; [reflexivity|]. rewrite <- !sixty_iff. rewrite E1, E2, E4, E5. auto.
  - intros (pre & post & -> & -> & (h & m & s & -> & Hh & Hm & Hs) & ->).
    destruct (two_list h) as (h1 & h2 & ->); [apply Hh|].
    destruct (two_list m) as (m1 & m2 & ->); [apply Hm|].
    destruct (two_list s) as (s1 & s2 & ->); [apply Hs|].
    apply hour24_iff in Hh. apply sixty_iff in Hm, Hs. apply andb_true_iff in Hm as [Hm1 Hm2], Hs as [Hs1 Hs2].
    cbn. unfold rd. cbn [nth_error bind]. rewrite Hh, Hm1, Hm2, Hs1, Hs2. reflexivity.
Qed.

Lemma time12_exact want t : takes_text (parseTime12hr want t) want t time12_g.
Proof.
  intros n v. unfold parseTime12hr, time12_g. split.
  - destruct (Nat.ltb_spec (List.length t) 8) as [|H]; [discriminate|]. cbn [negb].
    do 8 peel t H. unfold rd. cbn [rdall rd nth_error bind]. intros Hr.
    do 7 chk Hr. unfold ok_text, jsub in Hr. cbn [firstn] in Hr. injection Hr as <- <-.
    apply hour12_iff in E. eqchars. give. exists [c; c0], [c2; c3], [c5; c6].
    split; [reflexivity|]. rewrite <- !sixty_iff. rewrite E1, E2, E4, E5. auto.
  - intros (pre & post & -> & -> & (h & m & s & -> & Hh & Hm & Hs) & ->).
    destruct (two_list h) as (h1 & h2 & ->); [apply Hh|].
    destruct (two_list m) as (m1 & m2 & ->); [apply Hm|].
    destruct (two_list s) as (s1 & s2 & ->); [apply Hs|].
    apply hour12_iff in Hh. apply sixty_iff in Hm, Hs. apply andb_true_iff in Hm as [Hm1 Hm2], Hs as [Hs1 Hs2].
    cbn. unfold rd. cbn [nth_error bind]. rewrite Hh, Hm1, Hm2, Hs1, Hs2. reflexivity.
Qed.

Lemma num_in1 lo hi a : num_in 1 lo hi [a] <-> digit a /\ (lo <= digit_value a <= hi)%Z.
Proof.
  unfold num_in, all_digits, decimal. cbn [fold_left List.length]. split.
  - intros (_ & HF & H). inversion HF; subst. split; [auto|lia].
  - intros (Ha & H). split; [reflexivity|]. split; [fsplit; auto|]. lia.
Qed.

Lemma colon_not_digit c : c = ":"%char -> isdigit c = false.
Proof. intros ->. reflexivity. Qed.

Lemma duration_exact want t : takes_text (parseDuration want t) want t duration_g.
Proof.
  intros n v. unfold parseDuration, duration_g. split.
  - destruct t as [|c t]; [discriminate|]. cbn [rd nth_error bind]. destruct (isdigit c) eqn:E; [|discriminate].
    destruct t as [|c0 t]; [discriminate|]. unfold rd. cbn [nth_error bind].
    destruct (isdigit c0) eqn:E0.
    + destruct t as [|c1 t]; [discriminate|]. unfold rd. cbn [nth_error bind].
      destruct (ceq c1 ":") eqn:E1; [|discriminate]. cbn [List.length Nat.add].
      destruct (Nat.ltb_spec (S (S (S (List.length t)))) 8) as [|H]; [discriminate|]. cbn [negb].
      assert (H' : 5 <= List.length t) by lia. clear H. rename H' into H.
      do 5 peel t H. unfold rd. cbn [rdall rd nth_error bind]. intros Hr. do 5 chk Hr.
      unfold ok_text, jsub in Hr. cbn [firstn] in Hr. injection Hr as <- <-. eqchars. give.
      exists [c; c0], [c2; c3], [c5; c6]. split; [reflexivity|]. rewrite <- !sixty_iff, E2, E3, E5, E6.
      split; [|auto]. right. apply num_in2. apply isdigit_iff in E, E0.
      pose proof (digit_value_range _ E). pose proof (digit_value_range _ E0). split; [auto|]. split; [auto|lia].
    + unfold rd. cbn [nth_error bind]. destruct (ceq c0 ":") eqn:E1; [|discriminate]. cbn [List.length Nat.add].
      destruct (Nat.ltb_spec (S (S (List.length t))) 7) as [|H]; [discriminate|]. cbn [negb].
      assert (H' : 5 <= List.length t) by lia. clear H. rename H' into H.
      do 5 peel t H. unfold rd. cbn [rdall rd nth_error bind]. intros Hr. do 5 chk Hr.
      unfold ok_text, jsub in Hr. cbn [firstn] in Hr. injection Hr as <- <-. eqchars. give.
      exists [c], [c1; c2], [c4; c5]. split; [reflexivity|]. rewrite <- !sixty_iff, E2, E3, E5, E6.
      split; [|auto]. left. apply num_in1. apply isdigit_iff in E. pose proof (digit_value_range _ E). auto.
  - intros (pre & post & -> & -> & (h & m & s & -> & Hh & Hm & Hs) & ->).
    destruct (two_list m) as (m1 & m2 & ->); [apply Hm|].
    destruct (two_list s) as (s1 & s2 & ->); [apply Hs|].
    apply sixty_iff in Hm, Hs. apply andb_true_iff in Hm as [Hm1 Hm2], Hs as [Hs1 Hs2].
    destruct Hh as [Hh|Hh].
    + destruct h as [|h1 [|]]; try (destruct Hh as [Hh _]; discriminate Hh).
      apply num_in1 in Hh as [Hh _]. apply isdigit_iff in Hh. cbn. unfold rd. cbn [nth_error bind].
      rewrite Hh, Hm1, Hm2, Hs1, Hs2. reflexivity.
    + destruct (two_list h) as (h1 & h2 & ->); [apply Hh|].
      apply num_in2 in Hh as (Hh & Hh' & _). apply isdigit_iff in Hh, Hh'.
      cbn. unfold rd. cbn [nth_error bind]. rewrite Hh, Hh'. cbn [nth_error bind]. rewrite Hm1, Hm2, Hs1, Hs2. reflexivity.
Qed.

Lemma mac48_exact want t : takes_text (parseMAC48 want t) want t mac48_g.
Proof.
  intros n v. unfold parseMAC48, mac48_g. split.
  - destruct (Nat.ltb_spec (List.length t) 17) as [|H]; [discriminate|]. cbn [negb].
    do 17 peel t H. unfold rd. cbn [rdall rd nth_error bind]. intros Hr.
    do 17 chk Hr. unfold ok_text, jsub in Hr. cbn [firstn] in Hr. injection Hr as <- <-.
    apply orb_true_iff in E1. rewrite !ceq_true in E1. eqchars. give.
    eexists. split; [exact E1|]. do 12 eexists. split; [reflexivity|].
    fsplit; apply isxdigit_iff; assumption.
  - intros (pre & post & -> & -> & (sep & Hsep & a & b & c & d & e & f & g & h & i & j & k & l & -> & HF) & ->).
    assert (HF' : Forall (fun c => isxdigit c = true) [a; b; c; d; e; f; g; h; i; j; k; l]).
    { eapply Forall_impl; [|exact HF]. intros x. apply isxdigit_iff. }
    clear HF. cbn.
    repeat match goal with H : Forall _ (_ :: _) |- _ => inversion H; clear H; subst end.
    repeat match goal with H : isxdigit _ = true |- _ => rewrite H; clear H end.
    rewrite ceq_refl.
    replace (ceq sep ":" || ceq sep "-")%bool with true; [reflexivity|].
    destruct Hsep as [-> | ->]; reflexivity.
Qed.
