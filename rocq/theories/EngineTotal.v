(** * EngineTotal: the normalizer always returns on well-formed rulebases. *)
From Verif Require Import Base Time Parsers Engine EngineSpec EngineWf BaseFacts FieldSpec SafetySpec FieldFacts FieldFacts2 FieldFacts3 FieldFacts4 FieldFacts5
  IntFacts ParserSafe ParserSafe2 EngineFacts EngineFacts2.
From Coq Require Import ZifyBool ZifyNat ZifyN.

(** ** consuming fields consume *)
Definition pos1 (r : nat * json) : Prop := 1 <= fst r.
Definition T0 (u : ub) : Prop := True.

Lemma pos_text want t G r : takes_text r want t G -> (forall pre pst, G pre pst -> 1 <= List.length pre) -> post T0 pos1 r.
Proof.
  intros H HG. destruct r as [[n v]| |]; cbn; auto; [|exact I]. destruct (H n v) as [H1 _]. destruct (H1 eq_refl) as (pre & pst & -> & -> & Hg & _).
  exact (HG _ _ Hg).
Qed.
Lemma ne_len (pre : text) : pre <> [] -> 1 <= List.length pre.
Proof. destruct pre; cbn; [congruence|lia]. Qed.

Lemma pos_any {A} (r : res A) : post T0 (fun _ => True) r. Proof. destruct r; exact I. Qed.

Lemma date5424_pos e f want t : post T0 pos1 (parseRFC5424Date e f want t).
Proof.
  (* by length: the rest after the first '-' is shorter *)
  unfold parseRFC5424Date.
  assert (HE : forall ch u (P : text -> Prop), (forall w, List.length w < List.length u -> P w) -> post T0 P (expect ch u)).
  { intros ch u P HP. destruct u as [|c u]; cbn; [exact I|]. destruct (ceq c ch); [apply HP; cbn; lia|exact I]. }
  assert (HP : forall u, post T0 (fun r => List.length (snd r) <= List.length u) (hParseInt e u)).
  { intros u. eapply post_mono; [eapply post_monoU; [apply (hParseInt_go_kind e u 0)|intros x _; exact I]|].
    intros [v w] H. cbn [snd] in *. rewrite H, skipn_length. lia. }
  assert (HI : forall lo hi u, post T0 (fun r => List.length (snd r) <= List.length u) (intIn e lo hi u)).
  { intros lo hi u. unfold intIn. eapply post_bind; [apply HP|]. intros [v w] H. destruct (_ || _)%bool; [exact I|exact H]. }
  eapply post_bind; [apply HP|]. intros [y u1] H1.
  eapply post_bind; [apply HE with (P := fun w => List.length w < List.length u1); auto|]. intros u2 H2.
  eapply post_bind; [apply HI|]. intros [mo u3] H3.
  eapply post_bind; [apply HE with (P := fun w => List.length w < List.length u3); auto|]. intros u4 H4.
  eapply post_bind; [apply HI|]. intros [d u5] H5.
  eapply post_bind; [apply HE with (P := fun w => List.length w < List.length u5); auto|]. intros u6 H6.
  eapply post_bind; [apply HI|]. intros [h u7] H7.
  eapply post_bind; [apply HE with (P := fun w => List.length w < List.length u7); auto|]. intros u8 H8.
  eapply post_bind; [apply HI|]. intros [mi u9] H9.
  eapply post_bind; [apply HE with (P := fun w => List.length w < List.length u9); auto|]. intros u10 H10.
  eapply post_bind; [apply HI|]. intros [s u11] H11. cbn [snd] in *.
  eapply post_bind.
  { instantiate (1 := fun r => List.length (snd r) <= List.length u11). destruct u11 as [|c u']; [cbn; lia|]. destruct (ceq c "."); [|cbn; lia].
    eapply post_bind; [apply HP|]. intros [v w] H. cbn in *. lia. }
  intros [[sf prec] u12] H12. cbn [snd] in H12.
  eapply post_bind.
  { instantiate (1 := fun r => List.length (snd r) <= List.length u12). destruct u12 as [|c u']; [exact I|]. destruct (ceq c "Z"); [cbn; lia|].
    destruct (_ || _)%bool; [|exact I]. eapply post_bind; [apply HI|]. intros [oh w] Hw.
    eapply post_bind; [apply HE with (P := fun x => List.length x < List.length w); auto|]. intros w' Hw'.
    eapply post_bind; [apply HI|]. intros [om w''] Hw''. cbn in *. lia. }
  intros [[[oh om] ah] u13] H13. cbn [snd] in H13. apply post_check. intros _. cbv zeta.
  assert (HN : 1 <= List.length t - List.length u13) by lia.
  destruct want; cbn [negb]; [|exact HN]. destruct f; [exact HN| | |];
    (eapply post_bind; [apply pos_any|]; intros ts _; try exact HN).
  eapply post_bind; [apply pos_any|]. intros ms _. exact HN.
Qed.
Lemma date3164_pos e f want t : post T0 pos1 (parseRFC3164Date e f want t).
Proof.
  unfold parseRFC3164Date. destruct t as [|a [|b [|c u0]]] eqn:Et; try exact I. destruct (month3 a b c); [|exact I]. rewrite <- Et.
  assert (HT : List.length t = 3 + List.length u0) by (subst t; reflexivity). clear Et.
  assert (HE : forall ch u (P : text -> Prop), (forall w, List.length w < List.length u -> P w) -> post T0 P (expect ch u)).
  { intros ch u P HP. destruct u as [|x u]; cbn; [exact I|]. destruct (ceq x ch); [apply HP; cbn; lia|exact I]. }
  assert (HP : forall u, post T0 (fun r => List.length (snd r) <= List.length u) (hParseInt e u)).
  { intros u. eapply post_mono; [eapply post_monoU; [apply (hParseInt_go_kind e u 0)|intros x _; exact I]|].
    intros [v w] H. cbn [snd] in *. rewrite H, skipn_length. lia. }
  assert (HI : forall lo hi u, post T0 (fun r => List.length (snd r) <= List.length u) (intIn e lo hi u)).
  { intros lo hi u. unfold intIn. eapply post_bind; [apply HP|]. intros [v w] H. destruct (_ || _)%bool; [exact I|exact H]. }
  eapply post_bind; [apply HE with (P := fun w => List.length w < List.length u0); auto|]. intros u1 H1.
  eapply post_bind; [apply pos_any|]. intros p _.
  set (u2 := if ceq p " " then skipn 1 u1 else u1).
  assert (H2 : List.length u2 <= List.length u1) by (subst u2; destruct (ceq p " "); [rewrite skipn_length|]; lia). clearbody u2.
  eapply post_bind; [apply HI|]. intros [d u3] H3.
  eapply post_bind; [apply HE with (P := fun w => List.length w < List.length u3); auto|]. intros u4 H4.
  eapply post_bind; [apply HP|]. intros [h0 u5] H5. cbn [snd] in *.
  eapply post_bind.
  { instantiate (1 := fun r => List.length (snd r) <= List.length u5). destruct (_ && _)%bool; [|cbn; lia].
    eapply post_bind; [apply HE with (P := fun w => List.length w < List.length u5); auto|]. intros u6 H6.
    eapply post_mono; [apply HP|]. intros [v w] H. cbn in *. lia. }
  intros [h u7] H7. apply post_check. intros _.
  eapply post_bind; [apply HE with (P := fun w => List.length w < List.length u7); auto|]. intros u8 H8.
  eapply post_bind; [apply HI|]. intros [mi u9] H9.
  eapply post_bind; [apply HE with (P := fun w => List.length w < List.length u9); auto|]. intros u10 H10.
  eapply post_bind; [apply HI|]. intros [s u11] H11. cbn [snd] in *.
  set (u12 := match u11 with [] => _ | _ => _ end).
  assert (H12 : List.length u12 <= List.length u11) by (subst u12; destruct u11 as [|x u']; [lia|]; destruct (ceq x ":"); cbn; lia). clearbody u12.
  cbv zeta. assert (HN : 1 <= List.length t - List.length u12) by lia.
  destruct want; cbn [negb]; [|exact HN]. destruct f; [exact HN| | |]; (eapply post_bind; [apply pos_any|]; intros ts _; exact HN).
Qed.

Lemma motif_pos e m want offs t : consuming m = true -> post T0 pos1 (run_motif e m want offs t).
Proof.
  destruct m as [lit|f|f|f mx|f|f mx| | | | | | | | | | | | | | |s a| | | | |c| |s|s|s|cfg|ty]; cbn [consuming]; try discriminate; intros HC; cbn [run_motif].
  - destruct lit as [|c lit]; [discriminate|]. unfold parseLiteral.
    assert (H : forall t j, post T0 (fun k => j <= k) (literal_loop (c :: lit) t j)).
    { induction t0 as [|x u IH]; intros j; cbn [literal_loop]; [cbn; lia|]. eapply post_bind; [apply pos_any|]. intros y _.
      destruct (ceq y x); [|cbn; lia]. eapply post_mono; [apply IH|]. cbv beta. intros; lia. }
    eapply post_bind; [apply H|]. intros [|j] _; [|eapply post_bind; [apply pos_any|]; intros l _; destruct (ceq l NUL); [|exact I]; cbn; unfold pos1; cbn; lia].
    cbn [rdlit nth_error bind]. destruct (ceq c NUL); [discriminate|exact I].
  - apply date3164_pos.
  - apply date5424_pos.
  - unfold parseNumber. eapply post_bind; [apply pos_any|]. intros [v n] _. apply post_check. intros _. apply post_check. intros Hn.
    assert (1 <= n) by lia. destruct (is_string f); exact H.
  - unfold parseFloat. eapply post_bind; [apply pos_any|]. intros x _. apply post_check. intros Hn.
    match type of Hn with context [Nat.eqb ?a 0] => assert (HH : 1 <= a) by lia end. destruct (is_string f); exact HH.
  - unfold parseHexNumber. eapply post_bind; [apply pos_any|]. intros x _. apply post_check. intros _. eapply post_bind; [apply pos_any|]. intros y _. apply post_check. intros _.
    destruct (hex_loop 0 (skipn 2 t)) as [v n]. eapply post_bind; [apply pos_any|]. intros z _. apply post_check. intros _. apply post_check. intros _.
    destruct (is_string f); cbn; unfold pos1; cbn; lia.
  - eapply pos_text; [apply kernel_ts_exact|]. intros pre pst (s & u & -> & _). rewrite app_length. cbn. lia.
  - eapply pos_text; [apply whitespace_exact|]. intros pre pst [H _]. apply ne_len, H.
  - eapply pos_text; [apply ipv4_exact|]. intros pre pst (x & y & z & w & -> & Hx & _). rewrite app_length. unfold octet in Hx. lia.
  - unfold parseIPv6. do 1 (apply post_check; intros _). eapply post_bind; [apply pos_any|]. intros c0 _. eapply post_bind; [apply pos_any|]. intros fst _. apply post_check. intros _.
    eapply post_bind; [apply pos_any|]. intros [[[[b i] nb] had] has4] _. eapply post_bind; [apply pos_any|]. intros [i' nb'] _. apply post_check. intros _. apply post_check. intros _.
    unfold rd_back. destruct (Nat.ltb_spec i' 1); [exact I|]. eapply post_bind; [apply pos_any|]. intros c1 _.
    eapply post_bind; [apply pos_any|]. intros tr _. apply post_check. intros _. exact H.
  - eapply pos_text; [apply word_exact|]. intros pre pst [H _]. apply ne_len, H.
  - eapply pos_text; [apply alpha_exact|]. intros pre pst [H _]. apply ne_len, H.
  - unfold parseOpQuotedString. eapply post_bind; [apply pos_any|]. intros x _. destruct (negb (ceq x """")).
    + apply post_check. intros Hn. unfold store_op. destruct want; [|exact I]. cbn. unfold pos1. cbn. lia.
    + apply post_check. intros Hn. eapply post_bind; [apply pos_any|]. intros y _. apply post_check. intros _. unfold store_op. destruct want; [|exact I]. cbn. unfold pos1. cbn. lia.
  - eapply pos_text; [apply quoted_exact|]. intros pre pst (inner & -> & _). rewrite app_length. cbn. lia.
  - eapply pos_text; [apply date_iso_exact|]. intros pre pst (y & mo & d & -> & [Hy _] & _). rewrite app_length. lia.
  - eapply pos_text; [apply time24_exact|]. intros pre pst (h & mi & s & -> & _). rewrite !app_length. cbn. lia.
  - eapply pos_text; [apply time12_exact|]. intros pre pst (h & mi & s & -> & _). rewrite !app_length. cbn. lia.
  - eapply pos_text; [apply duration_exact|]. intros pre pst (h & mi & s & -> & _). rewrite !app_length. cbn. lia.
  - (* cisco *)
    unfold parseCisco. eapply post_bind; [apply pos_any|]. intros x _. apply post_check. intros _. eapply post_bind; [apply pos_any|]. intros ip0 _.
    eapply post_bind; [apply pos_any|]. intros [[i iface] have] _. apply post_check. intros _. eapply post_bind.
    { instantiate (1 := fun r => let '(i, _, _) := r in 1 <= i). destruct have; [cbn; lia|]. eapply post_bind; [apply pos_any|]. intros [l v] _. cbn. lia. }
    intros [[i2 idx] len] Hi2. apply post_check. intros _. eapply post_bind; [apply pos_any|]. intros y _. apply post_check. intros _.
    eapply post_bind; [apply pos_any|]. intros [lp v] _.
    assert (H2 : forall i, 1 <= i -> post T0 (fun r => 1 <= fst r) (cisco_ip2 e t i)).
    { intros k Hk. unfold cisco_ip2. repeat (lazymatch goal with
        | |- post _ _ (Ok _) => cbn [post fst]; lia
        | |- post _ _ (bind _ _) => eapply post_bind; [apply pos_any|]; intros ? _
        | |- post _ _ (match ?x with _ => _ end) => destruct x
        | |- _ => progress cbv zeta end). }
    assert (H3 : forall i, 1 <= i -> post T0 (fun r => 1 <= fst r) (cisco_user t i)).
    { intros k Hk. unfold cisco_user. repeat (lazymatch goal with
        | |- post _ _ (Ok _) => cbn [post fst]; lia
        | |- post _ _ (bind _ _) => eapply post_bind; [apply pos_any|]; intros ? _
        | |- post _ _ (match ?x with _ => _ end) => destruct x
        | |- _ => progress cbv zeta end). }
    eapply post_bind; [apply H2; lia|]. intros [i3 ip2] Hi3. eapply post_bind; [apply H3; exact Hi3|]. intros [i4 us] Hi4. destruct want; exact Hi4.
  - eapply pos_text; [apply mac48_exact|]. intros pre pst (sep & _ & a & b & c & d & e0 & f & g & h & i & j & k & l & -> & _). cbn. lia.
  - eapply post_mono; [eapply post_and|].
    + apply (cef_safe T0 e want t); intros; exact I.
    + instantiate (1 := fun _ => 17 <= List.length t). unfold parseCEF. destruct (Nat.ltb_spec (List.length t) 17); cbn [negb]; [exact I|].
      eapply post_mono; [apply pos_any|]. intros; lia.
    + intros [n v] [H1 H2]. unfold pos1. cbn [fst] in *. lia.
  - unfold parseIptables. eapply post_bind.
    { instantiate (1 := fun r => snd r = 0 \/ 1 <= fst r). cbn [ipt_stage1]. destruct t as [|c0 t0] eqn:Et; [cbn; auto|]. rewrite <- Et.
      eapply post_bind; [apply (iptnv_safe T0)|]. intros [[k nm] v] Hk. eapply post_bind; [apply pos_any|]. intros [k' nf] _. cbn [post fst snd]. lia. }
    intros [k nf] Hk. cbn [fst snd] in Hk. apply post_check. intros Hnf. assert (1 <= k) by lia.
    destruct want; cbn [negb]; [|exact H]. destruct (ipt_stage2 _ t []); [exact H|exact I|exact I].
  - unfold parseStringTo. eapply post_bind; [apply pos_any|]. intros [i found] _. apply post_check. intros Hc. apply post_check. intros Hc2. apply post_check. intros Hc3.
    cbn. unfold pos1. cbn. lia.
  - eapply pos_text; [apply char_to_exact|]. intros pre pst [H _]. apply ne_len, H.
  - unfold parseString. apply post_check. intros _. eapply post_bind; [apply pos_any|]. intros x _. eapply post_bind; [apply pos_any|]. intros hq _.
    eapply post_bind; [apply pos_any|]. intros [[i endq] he] _. apply post_check. intros _. apply post_check. intros Hi.
    eapply post_bind; [apply pos_any|]. intros g _. apply post_check. intros _.
    assert (HH : 1 <= if endq then S i else i) by (destruct endq; lia).
    destruct want; cbn [negb]; [|exact HH]. eapply post_bind; [apply pos_any|]. intros v _. exact HH.
Qed.

(** ** harmless messages stay harmless further on *)
Lemma harmless_skipn e k t : harmless e t -> harmless e (skipn k t).
Proof.
  intros (H1 & H2 & H3 & H4 & H5). repeat split; auto.
  - intros H. apply H1. destruct (skipn_sfx k t) as [a Ha]. eapply long_run_sfx; [exact Ha|exact H].
  - intros H. apply H2. eapply In_skipn; exact H.
  - unfold ascii7 in *. rewrite <- (firstn_skipn k t) in H3. apply Forall_app in H3 as [_ H3]. exact H3.
  - intros H. apply H4. eapply ends_bs_skipn; exact H.
Qed.

Section Total.
Variables (e : env) (cx : ctx) (msg : text) (rk : nat -> nat).
Hypothesis Htok : tok_ok e.
Hypothesis Hg : graph_ok cx rk.
Let N := List.length msg.

(** a result with [P], or a misbehaviour of a field parser *)
Definition orU {A} (r : er A) (P : A -> Prop) : Prop := match r with EOk a => P a | EUb u => exposed cx e msg u end.
Lemma orU_bind {A B} (x : er A) (f : A -> er B) P Q : orU x P -> (forall a, P a -> orU (f a) Q) -> orU (ebind x f) Q.
Proof. destruct x; cbn; auto. Qed.
Lemma orU_mono {A} (x : er A) (P Q : A -> Prop) : orU x P -> (forall a, P a -> Q a) -> orU x Q.
Proof. destruct x; cbn; auto. Qed.

Definition good (nd offs : nat) (s : rst) (r : bool * rst) : Prop :=
    r_pt s <= r_pt (snd r) <= N /\ (r_js s <> None -> r_js (snd r) <> None) /\
    (fst r = true -> exists en n, r_end (snd r) = Some en /\ node_at cx en n /\ n_term n = true) /\
    (fst r = true -> starter cx nd -> offs <= r_pt (snd r)) /\ (fst r = true -> productive cx nd -> offs < r_pt (snd r)).

Definition good_rec (rec : nat -> nat -> bool -> rst -> er (bool * rst)) (r : nat) : Prop :=
  forall nd offs partial s, valid cx nd -> rk nd < r -> offs <= N -> r_pt s <= N -> (r_js s = None -> silent cx nd) ->
    orU (rec nd offs partial s) (good nd offs s).

Lemma starter_valid i : starter cx i -> valid cx i. Proof. intros (n & H & _). exists n. auto. Qed.
Lemma productive_starter i : productive cx i -> starter cx i.
Proof. intros H. inversion H; subst. exists n. auto. Qed.

Lemma repeat_good rec r pn wn permit lo : good_rec rec r -> starter cx pn -> rk pn < r -> productive cx wn -> rk wn < r -> silent cx wn ->
  forall f strt lkg arr s, N - strt < f -> strt <= N -> lo <= strt -> lo <= lkg <= N -> r_pt s <= N ->
  orU (repeat_loop rec f pn wn permit strt lkg arr s) (fun r =>
    match fst r with Some (pos, v) => lo <= pos <= N /\ (permit = false -> productive cx pn -> lo < pos) | None => True end).
Proof.
  intros Hrec Hpn Hrpn Hwn Hrwn Hsil. induction f as [|f IH]; intros strt lkg arr s Hf Hs Hlo Hlkg Hpt; [lia|]. cbn [repeat_loop].
  eapply orU_bind; [apply Hrec; auto using starter_valid; cbn; discriminate|].
  intros [ok s1] (Hp1 & Hj1 & He1 & Hst1 & Hpr1). cbn [fst snd r_pt set_end set_js] in *. destruct ok; cbn [negb].
  - specialize (Hst1 eq_refl Hpn).
    eapply orU_bind; [apply Hrec; auto; [apply starter_valid, productive_starter; auto|lia|cbn; lia]|].
    intros [ok2 s2] (Hp2 & _ & _ & _ & Hpr2). cbn [fst snd] in *. destruct ok2.
    + specialize (Hpr2 eq_refl Hwn). apply IH; try lia.
    + cbn. split; [lia|]. intros _ Hpp. specialize (Hpr1 eq_refl Hpp). lia.
  - destruct permit; cbn; auto. split; [lia|discriminate].
Qed.

Lemma try_good rec rf r p offs s : good_rec rec r -> in_graph cx p -> field_ok cx rk r p -> N < rf -> offs <= N -> r_pt s <= N ->
  orU (tryParser e cx msg rec rf p offs s) (fun '(o, s1) => r_pt s1 = r_pt s /\ r_js s1 = r_js s /\
    match o with Some (pos, v) => offs <= pos <= N /\ (prod_prs cx p -> offs < pos) | None => True end).
Proof.
  intros Hrec Hin (Hv & Hrk & Hk) Hrf Ho Hpt. unfold tryParser. destruct (p_kind p) as [m|pn wn permit|ti] eqn:Ek.
  - destruct (Nat.ltb_spec (List.length msg) offs); [unfold N in *; lia|].
    destruct (run_motif e m _ offs (skipn offs msg)) as [[n v]|k|u] eqn:Er; cbn [orU].
    + split; auto. split; auto. pose proof Er as Er2. apply motif_len in Er2; auto. rewrite skipn_length in Er2.
      split; [unfold N in *; lia|]. intros Hp. inversion Hp as [p' m' Hk' Hcm|p' ti nm tn Hk'|p' pn wn Hk']; subst; rewrite Ek in Hk'; try discriminate.
      injection Hk' as <-. match type of Er with run_motif _ _ ?w _ _ = _ => pose proof (motif_pos e m w offs (skipn offs msg) Hcm) as HP end.
      rewrite Er in HP. unfold pos1 in HP. cbn in HP. lia.
    + auto.
    + apply motif_ub in Er. exists p, m, offs. auto.
  - destruct Hk as (Hs & Hr1 & Hpw & Hr2 & Hsil).
    eapply orU_bind; [apply (repeat_good rec r pn wn permit offs Hrec Hs Hr1 Hpw Hr2 Hsil rf offs offs None s); auto; lia|].
    intros [o s1] Hpos. cbn [orU fst] in *. split; [reflexivity|]. split; [reflexivity|].
    destruct o as [[pos v]|]; auto. destruct Hpos as [H1 H2]. split; auto. intros Hp.
    inversion Hp as [p' m' Hk' Hcm|p' ti nm tn Hk'|p' pn' wn' Hk']; subst; rewrite Ek in Hk'; try discriminate. injection Hk' as <- <- ->. auto.
  - destruct Hk as (nm & tn & Hty0 & Hst & Hr1). rewrite Hty0.
    eapply orU_bind; [apply Hrec; auto using starter_valid; cbn; discriminate|].
    intros [ok s1] (Hp1 & Hj1 & He1 & Hst1 & Hpr1). cbn [orU fst snd] in *. split; [reflexivity|]. split; [reflexivity|]. destruct ok; auto.
    split; [split; [auto|lia]|]. intros Hp. inversion Hp as [p' m' Hk' Hcm|p' ti' nm' tn' Hk' Hty Hpt'|p' pn' wn' Hk']; subst; rewrite Ek in Hk'; try discriminate.
    injection Hk' as <-. assert (tn' = tn) by congruence. subst. auto.
Qed.

Lemma fix_good p v js : (js = None -> p_name p = None) -> exists js', fixJSON p v js = EOk js' /\ (js <> None -> js' <> None) .
Proof.
  intros H. unfold fixJSON. destruct (p_name p) as [nm|]; [|exists js; auto].
  destruct js as [o|]; [|specialize (H eq_refl); discriminate].
  destruct (text_eqb nm (L ".")); [destruct v as [| | | | | |[|? ?]] eqn:Ev|]; eexists; (split; [reflexivity|discriminate]).
Qed.

Lemma loop_good rec rf r nd partial offs : good_rec rec r -> N < rf -> offs <= N ->
  forall ps lpt s, Forall (in_graph cx) ps -> Forall (field_ok cx rk r) ps -> r_pt s <= N -> lpt <= N ->
  (r_js s = None -> Forall (fun p => p_name p = None /\ silent cx (p_child p)) ps) ->
  orU (parser_loop e cx msg rec rf nd ps offs partial lpt s) (fun '(ok, s') => r_pt s <= r_pt s' <= N /\ (r_js s <> None -> r_js s' <> None) /\
    (ok = true -> exists en n, r_end s' = Some en /\ node_at cx en n /\ n_term n = true) /\
    (ok = true -> offs <= r_pt s') /\ (ok = true -> Forall (prod_prs cx) ps -> offs < r_pt s')).
Proof.
  intros Hrec Hrf Ho. induction ps as [|p ps IH]; intros lpt s Hgr Hf Hpt Hlp Hsil; cbn [parser_loop].
  - cbn. repeat split; auto; discriminate.
  - inversion Hf as [|? ? Hp Hps]; subst. inversion Hgr as [|? ? Hg1 Hg2]; subst.
    assert (Hsil' : r_js s = None -> Forall (fun p => p_name p = None /\ silent cx (p_child p)) ps) by (intros K; specialize (Hsil K); inversion Hsil; auto).
    eapply orU_bind; [apply (try_good rec rf r p offs s Hrec Hg1 Hp Hrf Ho Hpt)|]. intros [o s1] (Hp1 & Hj1 & Hpos).
    destruct o as [[pos v]|].
    + destruct Hpos as [Hpos Hprod]. destruct Hp as (Hv & Hr & _).
      eapply orU_bind; [apply Hrec; auto; [lia|lia|]|].
      { rewrite Hj1. intros K. specialize (Hsil K). inversion Hsil; subst; tauto. }
      intros [ok s2] (Hp2 & Hj2 & He2 & _ & _). cbn [fst snd] in *. destruct ok.
      * destruct (fix_good p v (r_js s2)) as (js & -> & Hjs).
        { intros K. destruct (r_js s) eqn:Ej; [|specialize (Hsil eq_refl); inversion Hsil; subst; tauto]. exfalso. apply Hj2; [congruence|exact K]. }
        cbn [ebind orU]. split; [|split; [|split; [|split]]].
        -- destruct (opt_rule (c_opts cx)); cbn; lia.
        -- intros K. destruct (opt_rule (c_opts cx)); cbn; apply Hjs, Hj2; congruence.
        -- intros _. destruct (He2 eq_refl) as (en & n & H1 & H2). exists en, n. destruct (opt_rule (c_opts cx)); cbn; auto.
        -- intros _. destruct (opt_rule (c_opts cx)); cbn; lia.
        -- intros _ K. inversion K; subst. specialize (Hprod ltac:(auto)). destruct (opt_rule (c_opts cx)); cbn; lia.
      * eapply orU_mono; [apply IH; auto; try (cbn; lia)|].
        { cbn. intros K. apply Hsil'. destruct (r_js s) eqn:Ej; auto. exfalso. apply Hj2; [congruence|exact K]. }
        intros [ok' s'] (H2 & H3 & H4 & H5 & H6). cbn in H2, H3. repeat split; auto; try lia.
        -- intros K. apply H3, Hj2. congruence.
        -- intros K1 K2. inversion K2; subst. auto.
    + eapply orU_mono; [apply IH; auto; try (cbn; lia)|].
      { cbn. rewrite Hj1. auto. }
      intros [ok' s'] (H2 & H3 & H4 & H5 & H6). cbn in H2, H3. repeat split; auto; try lia.
      -- rewrite Hj1 in H3. auto.
      -- intros K1 K2. inversion K2; subst. auto.
Qed.

Lemma good_rec_mono rec r r' : r' <= r -> good_rec rec r -> good_rec rec r'.
Proof. intros Hr H nd offs partial s Hv Hrk. apply H; auto. lia. Qed.

Lemma normalizeRec_good : forall fuel, good_rec (normalizeRec e cx msg fuel) (fuel - N - 1).
Proof.
  induction fuel as [|f IH]; intros nd offs partial s Hv Hrk Ho Hpt Hsil; [lia|]. cbn [normalizeRec]. unfold norm_step.
  destruct Hv as [n Hn]. unfold get_node. rewrite Hn. cbn [ebind]. destruct Hg as [_ Hfields].
  eapply orU_bind; [apply (loop_good (normalizeRec e cx msg f) f (rk nd) nd partial offs); auto|].
  - eapply good_rec_mono; [|exact IH]. lia.
  - lia.
  - apply Forall_forall. intros p Hp. exists nd, n. auto.
  - cbn. intros K. specialize (Hsil K). apply Forall_forall. intros p Hp. pose proof (Hsil nd n (rn_refl cx nd) Hn) as H0. rewrite Forall_forall in H0. split; auto.
    intros b nb Hb Hnb. eapply Hsil; [|exact Hnb]. eapply rn_step; eauto.
  - intros [ok s'] (H2 & H3 & H4 & H5 & H6). cbn in H2, H3.
    destruct (n_term n) eqn:Et; cbn [andb].
    + destruct (_ || _)%bool; cbn [orU]; unfold good; cbn [fst snd].
      * split; [exact H2|]. split; [exact H3|]. split; [intros _; exists nd, n; auto|].
        split; intros _ K; [|apply productive_starter in K]; destruct K as (n' & Hn' & Ht'); unfold node_at in *; congruence.
      * split; [exact H2|]. split; [exact H3|]. split; [exact H4|]. split; [auto|].
        intros _ K. apply productive_starter in K. destruct K as (n' & Hn' & Ht'); unfold node_at in *; congruence.
    + cbn [orU]; unfold good; cbn [fst snd]. split; [exact H2|]. split; [exact H3|]. split; [exact H4|]. split; [auto|].
      intros K1 K2. apply H6; auto. inversion K2 as [i n' Hn' Ht' HF]; subst. unfold node_at in *. replace n with n' by congruence. exact HF.
Qed.

Lemma loop_rule rec rf nd offs partial : opt_rule (c_opts cx) = true -> forall ps lpt s s',
  parser_loop e cx msg rec rf nd ps offs partial lpt s = EOk (true, s') -> exists p r, In p ps /\ r_rule s' = r ++ mockup_of p.
Proof.
  intros Ho. induction ps as [|p ps IH]; intros lpt s s' H; cbn [parser_loop] in H; [discriminate|].
  apply ebind_ok in H as ([o s1] & _ & H). destruct o as [[pos v]|].
  - apply ebind_ok in H as ([ok s2] & _ & H). destruct ok.
    + apply ebind_ok in H as (js & _ & H). rewrite Ho in H. injection H as <-. exists p. cbn. eauto.
    + apply IH in H as (p' & r & H1 & H2). exists p', r. cbn. auto.
  - apply IH in H as (p' & r & H1 & H2). exists p', r. cbn. auto.
Qed.
Lemma annotate_good as_ tags o : (forall tag ops op, In (tag, ops) as_ -> In op ops -> exists n v, op = AopAdd (Some n) (Some v)) ->
  exists o', annotate as_ tags o = EOk o'.
Proof.
  intros H. unfold annotate. destruct as_ as [|a as_]; [eauto|]. remember (a :: as_) as l. clear Heql a as_.
  generalize (rev (tag_texts tags)). intros ts. revert o. induction ts as [|t ts IH]; intros o; cbn [annotate_tags]; [eauto|].
  unfold annotateEventWithTag. destruct (findAnnot l t) as [ops|] eqn:E; [|cbn [ebind]; apply IH].
  apply findAnnot_in in E. specialize (H t ops). assert (HH : forall op, In op ops -> exists n v, op = AopAdd (Some n) (Some v)) by auto. clear H E.
  assert (HA : exists o', annot_ops ops o = EOk o').
  { revert o. induction ops as [|op ops IH2]; intros o; cbn [annot_ops]; [eauto|]. destruct (HH op (or_introl eq_refl)) as (n & v & ->).
    cbn [annot_op ebind]. apply IH2. intros; apply HH; right; auto. }
  destruct HA as [o' ->]. cbn [ebind]. apply IH.
Qed.

Lemma normalize_total fuel js0 : report_ok cx -> rk (c_root cx) + N + 2 <= fuel ->
  orU (normalize fuel e cx msg js0) (fun _ => True).
Proof.
  intros (Ha & Hl & Hr) Hf. unfold normalize. fold (st0 js0). destruct fuel as [|fuel]; [lia|].
  assert (HG : orU (normalizeRec e cx msg (S fuel) (c_root cx) 0 false (st0 js0)) (good (c_root cx) 0 (st0 js0))).
  { apply normalizeRec_good; [apply Hg|lia|lia|cbn [r_pt st0]; lia|cbn; discriminate]. }
  destruct (normalizeRec e cx msg (S fuel) (c_root cx) 0 false (st0 js0)) as [[ok s]|u] eqn:Hrun; [|exact HG].
  destruct HG as (Hpt & Hj & He & _). cbn [fst snd] in *.
  cbn [ebind]. destruct ok; cbv zeta.
  - destruct (He eq_refl) as (en & n & -> & Hn & Ht). unfold get_node at 1. rewrite Hn. cbn [ebind].
    assert (HA : exists o2, (match n_tags n with None => EOk (match r_js s with Some x => x | None => [] end)
          | Some tags => annotate (c_annots cx) tags (obj_add (match r_js s with Some x => x | None => [] end) (L "event.tags") tags) end) = EOk o2).
    { destruct (n_tags n) as [tags|]; [|eauto]. apply annotate_good. exact Ha. }
    destruct HA as [o2 ->]. cbn [ebind]. generalize (if opt_orig (c_opts cx) then obj_add o2 (L "originalmsg") (JStr msg) else o2). intros o3.
    assert (HM : exists o4, add_metadata cx n (r_rule s) o3 = EOk o4).
    { unfold add_metadata. destruct (opt_rule (c_opts cx)) eqn:Er.
      - destruct (Hr eq_refl) as [Hst Hmk].
        assert (HR : filter (fun c => negb (ceq c NUL)) (r_rule s) <> []).
        { cbn [normalizeRec] in Hrun. unfold norm_step in Hrun. apply ebind_ok in Hrun as (n0 & Hn0 & Hrun). apply ebind_ok in Hrun as ([ok s1] & Hlp & Hrun).
          apply get_node_at in Hn0. destruct Hst as (n' & Hn' & Ht'). unfold node_at in *. rewrite Hn' in Hn0. injection Hn0 as <-. rewrite Ht' in Hrun. cbn [andb] in Hrun.
          injection Hrun as -> ->. apply loop_rule in Hlp as (p & r & Hin & Hrr); [|exact Er]. destruct (Hmk _ _ _ Hn' Hin) as (c & Hc & Hnc).
          intros K. assert (HI : In c (filter (fun c => negb (ceq c NUL)) (r_rule s))).
          { apply filter_In. split; [rewrite Hrr; apply in_or_app; auto|]. unfold ceq. destruct (Ascii.eqb_spec c NUL); [congruence|reflexivity]. }
          rewrite K in HI. exact HI. }
        destruct (filter _ (r_rule s)) as [|c0 l0]; [congruence|]. cbn [ebind].
        destruct (opt_loc (c_opts cx)); [|cbn; eauto]. specialize (Hl eq_refl _ _ Hn Ht). destruct (n_file n); [|congruence]. cbn. eauto.
      - cbn [ebind]. destruct (opt_loc (c_opts cx)); [|cbn; eauto]. specialize (Hl eq_refl _ _ Hn Ht). destruct (n_file n); [|congruence]. cbn. eauto. }
    destruct HM as [o4 ->]. exact I.
  - destruct (Nat.ltb_spec (List.length msg) (r_pt s)); [unfold N in *; lia|]. exact I.
Qed.
End Total.

Lemma normalize_exposed e cx msg rk fuel js0 u : tok_ok e -> graph_ok cx rk -> report_ok cx ->
  rk (c_root cx) + List.length msg + 2 <= fuel -> normalize fuel e cx msg js0 = EUb u -> exposed cx e msg u.
Proof. intros H1 H2 H3 H4 H. pose proof (normalize_total e cx msg rk H1 H2 fuel js0 H3 H4) as HT. rewrite H in HT. exact HT. Qed.
Lemma exposed_not_fuel cx e msg : ~ exposed cx e msg OutOfFuel.
Proof. intros (p & m & k & _ & _ & H). inversion H. Qed.
Lemma exposed_not_oob cx e msg : ~ exposed cx e msg OobRead.
Proof. intros (p & m & k & _ & _ & H). inversion H. Qed.
Lemma harmless_not_exposed cx e msg u : harmless e msg -> fields_usable cx -> ~ exposed cx e msg u.
Proof.
  intros Hm Hf (p & m & k & Hin & Hk & Hz). specialize (Hf _ _ Hin Hk). apply (harmless_skipn e k) in Hm. destruct Hm as (H1 & H2 & H3 & H4 & H5).
  assert (H19 : ~ long_run 19 (skipn k msg)).
  { intros (a & ds & b & He & Hd & Hl). apply H1. rewrite He. exists a, (firstn 10 ds), (skipn 10 ds ++ b). split.
    - rewrite (app_assoc (firstn 10 ds)), firstn_skipn. reflexivity.
    - split; [|rewrite firstn_length; lia]. rewrite <- (firstn_skipn 10 ds) in Hd. apply Forall_app in Hd as [Hd _]. exact Hd. }
  inversion Hz; subst; cbn in Hf; try contradiction; try congruence.
Qed.
Lemma normalize_safe e cx msg rk fuel js0 : tok_ok e -> graph_ok cx rk -> report_ok cx -> fields_usable cx -> harmless e msg ->
  rk (c_root cx) + List.length msg + 2 <= fuel -> exists ok o cx', normalize fuel e cx msg js0 = EOk (ok, o, cx').
Proof.
  intros H1 H2 H3 H4 H5 H6. pose proof (normalize_total e cx msg rk H1 H2 fuel js0 H3 H6) as HT.
  destruct (normalize fuel e cx msg js0) as [[[ok o] cx']|u]; [eauto|]. destruct (harmless_not_exposed cx e msg u H5 H4 HT).
Qed.
