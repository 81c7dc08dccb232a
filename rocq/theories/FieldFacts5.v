(** * FieldFacts5: float, string-to, op-quoted-string. *)
From Verif Require Import Base Time Parsers BaseFacts FieldSpec FieldFacts FieldFacts2 FieldFacts3 FieldFacts4.
From Coq Require Import ZifyBool ZifyNat ZifyN.

(** ** float *)
Lemma float_seen t : float_loop true t = scan isdigit t.
Proof.
  induction t as [|c t IH]; cbn [float_loop scan]; auto. destruct (ceq c ".") eqn:E.
  - apply ceq_true in E. subst. reflexivity.
  - destruct (isdigit c); auto.
Qed.
Lemma float_unseen t : float_loop false t =
  let k := scan isdigit t in
  match skipn k t with c :: r => if ceq c "." then k + S (scan isdigit r) else k | [] => k end.
Proof.
  induction t as [|c t IH]; cbn [float_loop scan]; auto. destruct (ceq c ".") eqn:E.
  - apply ceq_true in E. subst. cbn. rewrite float_seen. reflexivity.
  - destruct (isdigit c) eqn:Ed.
    + rewrite IH. cbn [skipn]. cbv zeta. destruct (skipn (scan isdigit t) t) as [|x r]; auto. destruct (ceq x "."); auto.
    + cbn. rewrite E. reflexivity.
Qed.

Lemma float_body_spec body post :
  (float_body body /\ (forall c r, post = c :: r -> ~ digit c /\ (c = "."%char -> In "."%char body))) <->
  List.length body = float_loop false (body ++ post).
Proof.
  rewrite float_unseen. cbv zeta. unfold float_body. split.
  - intros [[HB|(x & y & -> & Hx & Hy)] Hp].
    + rewrite scan_digits_app by auto. destruct post as [|c r].
      * cbn [scan]. rewrite Nat.add_0_r, app_nil_r, skipn_all. reflexivity.
      * destruct (Hp c r eq_refl) as [Hc Hd]. cbn [scan]. apply isdigit_not in Hc. rewrite Hc, Nat.add_0_r, skipn_app_exact.
        destruct (ceq c ".") eqn:E; auto. apply ceq_true in E. subst c. specialize (Hd eq_refl).
        unfold all_digits in HB. rewrite Forall_forall in HB. specialize (HB _ Hd). apply dot_nd in HB. contradiction.
    + rewrite <- !app_assoc. rewrite scan_digits_app by auto. cbn [L list_ascii_of_string app scan].
      change (isdigit ".") with false. rewrite Nat.add_0_r, skipn_app_exact, ceq_refl, scan_digits_app by auto.
      replace (scan isdigit post) with 0; [lens|]. symmetry. apply scan_zero. destruct post as [|c r]; auto.
      destruct (Hp c r eq_refl) as [Hc _]. apply isdigit_not; auto.
  - set (k := scan isdigit (body ++ post)). intros H.
    assert (HF : all_digits (firstn k (body ++ post))) by apply (lead_digits (body ++ post)).
    pose proof (scan_spec isdigit (body ++ post)) as [_ Hst]. fold k in Hst.
    assert (Hk : k <= List.length (body ++ post)) by apply scan_le.
    destruct (skipn k (body ++ post)) as [|c r] eqn:Es.
    + rewrite <- H in HF. rewrite firstn_app_exact in HF. split; auto. intros c r ->.
      rewrite <- H, skipn_app_exact in Es. discriminate.
    + destruct (ceq c ".") eqn:E.
      * apply ceq_true in E. subst c.
        assert (He : body ++ post = (firstn k (body ++ post) ++ L "." ++ firstn (scan isdigit r) r) ++ skipn (scan isdigit r) r).
        { rewrite <- (firstn_skipn k (body ++ post)) at 1. rewrite Es. rewrite <- (firstn_skipn (scan isdigit r) r) at 1.
          appnorm. reflexivity. }
        apply app_len_inj in He.
        2: { rewrite app_length, firstn_skipn_len by lia. cbn [L list_ascii_of_string app List.length].
             rewrite firstn_skipn_len by apply scan_le. exact H. }
        destruct He as [Hb Hp]. split.
        -- right. exists (firstn k (body ++ post)), (firstn (scan isdigit r) r). split; [exact Hb|]. split; auto.
           apply (lead_digits r).
        -- intros c r' Hcr. pose proof (scan_spec isdigit r) as [_ Hst']. rewrite <- Hp, Hcr in Hst'.
           split; [apply isdigit_not; auto|]. intros _. rewrite Hb. apply in_or_app. right. cbn. auto.
      * rewrite <- H in HF, Es. rewrite firstn_app_exact in HF. rewrite skipn_app_exact in Es. split; auto.
        intros c' r' ->. injection Es as -> ->. split; [apply isdigit_not; auto|]. intros ->. rewrite ceq_refl in E. discriminate.
Qed.

Lemma float_gen f want t n v :
  parseFloat f want t = Ok (n, v) <->
  exists pre post, t = pre ++ post /\ n = List.length pre /\ float_g pre post /\
    v = if want then (if is_string f then JStr pre else JDouble pre) else JNull.
Proof.
  unfold parseFloat. split.
  - intros H. 
    assert (exists s body post, t = s ++ body ++ post /\ (s = [] \/ s = L "-") /\
      (s = [] -> forall c r, t = c :: r -> c <> "-"%char) /\
      List.length body = float_loop false (body ++ post) /\ s ++ body <> [] /\
      n = List.length (s ++ body) /\ v = if want then (if is_string f then JStr (s ++ body) else JDouble (s ++ body)) else JNull) as
      (s & body & post & Ht & Hs & Hm & Hb & Hne & Hn & Hv).
    { destruct t as [|c t']; [discriminate H|]. change (rd (c :: t') 0) with (Ok c) in H. cbn [bind] in H.
      destruct (ceq c "-") eqn:Ec.
      - apply ceq_true in Ec. subst c. cbn [skipn] in H.
        set (k := float_loop false t') in H. assert (Hk : k <= List.length t').
        { unfold k. rewrite float_unseen. cbv zeta. pose proof (scan_le isdigit t').
          destruct (skipn (scan isdigit t') t') as [|x r] eqn:E; auto. destruct (ceq x "."); auto.
          pose proof (skipn_length (scan isdigit t') t') as HL. rewrite E in HL. cbn in HL. pose proof (scan_le isdigit r). lia. }
        exists (L "-"), (firstn k t'), (skipn k t'). cbn [Nat.add Nat.eqb negb] in H.
        rewrite firstn_skipn. split; [reflexivity|]. split; [auto|]. split; [discriminate|].
        split; [apply firstn_skipn_len; auto|]. split; [discriminate|].
        cbn [L list_ascii_of_string app List.length]. rewrite firstn_skipn_len by auto.
        destruct (is_string f); [unfold ok_text, jsub in H|]; injection H as <- <-; auto.
      - cbn [skipn Nat.add] in H. set (T := c :: t') in *. set (k := float_loop false T) in H. assert (Hk : k <= List.length T).
        { unfold k. rewrite float_unseen. cbv zeta. pose proof (scan_le isdigit T).
          destruct (skipn (scan isdigit T) T) as [|x r] eqn:E; auto. destruct (ceq x "."); auto.
          pose proof (skipn_length (scan isdigit T) T) as HL. rewrite E in HL. cbn [List.length] in HL. pose proof (scan_le isdigit r). lia. }
        exists [], (firstn k T), (skipn k T). rewrite firstn_skipn. split; [reflexivity|]. split; [auto|].
        split; [intros _ x r [= <- <-]; apply ceq_false; auto|]. split; [apply firstn_skipn_len; auto|].
        cbn [app]. destruct (Nat.eqb_spec k 0) as [|Hk0]; [discriminate|]. cbn [negb] in H.
        rewrite firstn_skipn_len by auto. split; [intros E; apply (f_equal (@List.length ascii)) in E; rewrite firstn_skipn_len in E by auto; apply Hk0; exact E|].
        destruct (is_string f); [unfold ok_text, jsub in H|]; injection H as <- <-; auto. }
    apply float_body_spec in Hb as [Hb Hp].
    exists (s ++ body), post. split; [rewrite Ht, app_assoc; reflexivity|]. split; auto. split; auto.
    split; auto. exists s, body. split; [reflexivity|]. split; [auto|]. split; [auto|]. split; [auto|].
    intros Hs0 c r Hcr. apply (Hm Hs0 c r). rewrite Ht, app_assoc. exact Hcr.
  - intros (pre & post & -> & -> & (Hne & s & body & -> & Hs & Hb & Hp & Hm) & ->).
    assert (HL : List.length body = float_loop false (body ++ post)) by (apply float_body_spec; auto).
    destruct Hs as [-> | ->].
    + cbn [app] in *. destruct (body ++ post) as [|c r] eqn:E.
      { apply app_eq_nil in E as [-> _]. congruence. }
      change (rd (c :: r) 0) with (Ok c). cbn [bind]. specialize (Hm eq_refl c r eq_refl).
      apply ceq_false in Hm. rewrite Hm. cbn [skipn Nat.add]. rewrite <- HL.
      replace (Nat.eqb (List.length body) 0) with false by (symmetry; apply len_nil; auto). cbn [negb].
      unfold ok_text, jsub. rewrite <- E, firstn_app_exact. destruct (is_string f), want; reflexivity.
    + cbn [L list_ascii_of_string app]. change (rd ("-"%char :: body ++ post) 0) with (Ok "-"%char). cbn [bind].
      rewrite ceq_refl. cbn [skipn]. rewrite <- HL. cbn [Nat.add Nat.eqb negb].
      unfold ok_text, jsub. cbn [firstn List.length]. rewrite firstn_app_exact. destruct (is_string f), want; reflexivity.
Qed.

Lemma float_exact want t :
  takes_text (parseFloat FmtString want t) want t float_g /\
  takes_value (parseFloat FmtNumber want t) want t float_g JDouble.
Proof. split; intros n v; apply float_gen. Qed.

(** ** string-to *)
Lemma strto_inner_spec tl : forall u, strto_inner tl u = true <-> tl <> [] /\ exists r, u = tl ++ r.
Proof.
  induction tl as [|f tl IH]; intros u; cbn [strto_inner].
  - split; [discriminate|]. intros [H _]. congruence.
  - destruct u as [|c u].
    + split; [discriminate|]. intros [_ [r H]]. discriminate.
    + destruct (ceq c f) eqn:E.
      * apply ceq_true in E. subst c. destruct tl as [|g tl].
        -- split; auto. intros _. split; [discriminate|]. exists u. reflexivity.
        -- rewrite IH. split.
           ++ intros [_ [r ->]]. split; [discriminate|]. exists r. reflexivity.
           ++ intros [_ [r H]]. injection H as ->. split; [discriminate|]. exists r. reflexivity.
      * split; [discriminate|]. intros [_ [r H]]. injection H as -> _. rewrite ceq_refl in E. discriminate.
Qed.

Lemma strto_outer_spec f0 tl : tl <> [] -> f0 <> NUL -> forall u i,
  (exists j r, strto_outer (f0 :: tl) u i = Ok (i + j, true) /\ 1 <= j <= List.length u /\
     skipn j u = (f0 :: tl) ++ r /\ (forall j' r', 1 <= j' < j -> skipn j' u <> (f0 :: tl) ++ r')) \/
  (strto_outer (f0 :: tl) u i = Ok (i + List.length u, false) /\
     forall j' r', 1 <= j' <= List.length u -> skipn j' u <> (f0 :: tl) ++ r').
Proof.
  intros Htl Hf0. induction u as [|c u IH]; intros i; cbn [strto_outer].
  - right. cbn. split; [f_equal; f_equal; lia|lia].
  - assert (HC : exists c1, rd u 0 = Ok c1 /\
       ((ceq c1 f0 && strto_inner tl (skipn 1 u))%bool = true <-> exists r, u = (f0 :: tl) ++ r)).
    { destruct u as [|c1 u1].
      - exists NUL. split; [reflexivity|]. replace (ceq NUL f0) with false by (symmetry; apply ceq_false; congruence).
        cbn. split; [discriminate|]. intros [r H]. discriminate.
      - exists c1. split; [reflexivity|]. cbn [skipn]. rewrite andb_true_iff, ceq_true, strto_inner_spec. split.
        + intros [-> [_ [r ->]]]. exists r. reflexivity.
        + intros [r H]. injection H as -> ->. split; auto. split; auto. exists r. reflexivity. }
    destruct HC as (c1 & -> & HC). cbn [bind]. unfold rdlit. cbn [nth_error bind].
    change (skipn 1 (f0 :: tl)) with tl.
    destruct (ceq c1 f0 && strto_inner tl (skipn 1 u))%bool eqn:Ec.
    + destruct (proj1 HC eq_refl) as [r Hr]. left. exists 1, r. split; [f_equal; f_equal; lia|].
      split; [cbn; lia|]. split; [exact Hr|]. lia.
    + assert (Hno : forall r, u <> (f0 :: tl) ++ r).
      { intros r Hr. assert (false = true); [|discriminate]. apply HC. eauto. }
      destruct (IH (S i)) as [(j & r & H1 & H2 & H3 & H4)|[H1 H2]].
      * left. exists (S j), r. split; [rewrite H1; f_equal; f_equal; lia|]. split; [cbn; lia|]. split; [exact H3|].
        intros [|[|j']] r' Hj; [lia| |].
        -- cbn [skipn]. apply Hno.
        -- change (skipn (S (S j')) (c :: u)) with (skipn (S j') u). apply H4. lia.
      * right. split; [rewrite H1; f_equal; f_equal; cbn; lia|].
        intros [|[|j']] r' Hj; [lia| |].
        -- cbn [skipn]. apply Hno.
        -- change (skipn (S (S j')) (c :: u)) with (skipn (S j') u). apply H2. cbn in Hj. lia.
Qed.

Lemma string_to_exact s want t : 2 <= List.length s -> ~ In NUL s ->
  takes_text (parseStringTo s want t) want t (string_to_g s).
Proof.
  intros Hs Hnul. destruct s as [|f0 tl]; [cbn in Hs; lia|].
  assert (Htl : tl <> []) by (destruct tl; cbn in Hs; [lia|discriminate]).
  assert (Hf0 : f0 <> NUL) by (intros ->; apply Hnul; cbn; auto).
  intros n v. unfold parseStringTo. destruct (strto_outer_spec f0 tl Htl Hf0 t 0) as [(j & r & H1 & H2 & H3 & H4)|[H1 H2]].
  - rewrite H1. cbn [bind Nat.add].
    assert (Hj : j < List.length t).
    { pose proof (skipn_length j t) as HL. rewrite H3 in HL. cbn in HL. lia. }
    destruct (Nat.eqb_spec j 0); [lia|]. destruct (Nat.eqb_spec j (List.length t)); [lia|]. cbn [negb].
    unfold ok_text, jsub. split.
    + intros [= <- <-]. exists (firstn j t), (skipn j t). rewrite firstn_skipn, firstn_skipn_len by lia.
      split; [auto|]. split; [auto|]. split; [|reflexivity]. unfold string_to_g.
      rewrite firstn_skipn, firstn_skipn_len by lia.
      split; [intros E; apply (f_equal (@List.length ascii)) in E; rewrite firstn_skipn_len in E by lia; cbn in E; lia|].
      split; [eauto|]. intros p q r' Hpq Hp Hl Hq. apply (H4 (List.length p) r').
      * destruct p; [congruence|cbn in *; lia].
      * rewrite Hpq, skipn_app_exact. exact Hq.
    + intros (pre & post & -> & -> & (Hne & [r' Hr'] & Hmin) & ->).
      assert (j = List.length pre).
      { destruct (Nat.lt_trichotomy j (List.length pre)) as [Hlt|[|Hgt]]; auto; exfalso.
        - apply (Hmin (firstn j (pre ++ post)) (skipn j (pre ++ post)) r); auto.
          + rewrite firstn_skipn. reflexivity.
          + intros E; apply (f_equal (@List.length ascii)) in E; rewrite firstn_skipn_len in E by lia; cbn in E; lia.
          + rewrite firstn_skipn_len by lia. auto.
        - apply (H4 (List.length pre) r').
          + destruct pre; [congruence|cbn in *; lia].
          + rewrite skipn_app_exact. auto. }
      subst j. rewrite firstn_app_exact. reflexivity.
  - rewrite H1. cbn [bind Nat.add]. rewrite Nat.eqb_refl. cbn [negb]. split.
    + destruct (negb _); discriminate.
    + intros (pre & post & -> & _ & (Hne & [r' Hr'] & _) & _). exfalso. apply (H2 (List.length pre) r').
      * rewrite app_length. destruct pre; [congruence|cbn; lia].
      * rewrite skipn_app_exact. exact Hr'.
Qed.

(** one-character (or empty) search strings never match *)
Lemma string_to_short c want t n v : parseStringTo [c] want t <> Ok (n, v).
Proof.
  assert (H : forall u i, exists k, strto_outer [c] u i = Ok (k, false)).
  { induction u as [|x u IH]; intros i; cbn [strto_outer]; eauto.
    assert (Hr : exists y, rd u 0 = Ok y) by (destruct u; cbn; eauto). destruct Hr as [y ->]. cbn [bind].
    unfold rdlit. cbn [nth_error bind skipn strto_inner]. rewrite andb_false_r. apply IH. }
  unfold parseStringTo. destruct (H t 0) as [k ->]. cbn [bind].
  destruct (negb _); [|discriminate]. destruct (negb _); discriminate.
Qed.
