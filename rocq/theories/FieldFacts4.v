(** * FieldFacts4: float, ipv4, kernel-timestamp, string-to. *)
From Verif Require Import Base Time Parsers BaseFacts FieldSpec FieldFacts FieldFacts2 FieldFacts3.
From Coq Require Import ZifyBool ZifyNat ZifyN.

Ltac digs := repeat match goal with H : isdigit ?c = true |- context [isdigit ?c] => rewrite H end.

Ltac appnorm := cbn [L list_ascii_of_string]; repeat first [rewrite <- app_assoc | progress (cbn [app])].

Ltac lens := cbn [L list_ascii_of_string]; repeat first [rewrite app_length | progress (cbn [List.length app])]; lia.

Lemma ok_text_inv want t k n v : ok_text want t k = Ok (n, v) ->
  n = k /\ v = if want then JStr (firstn k t) else JNull.
Proof. unfold ok_text, jsub. intros H. assert (H1 := f_equal (fun r => match r with Ok (a, _) => a | _ => 0 end) H).
  assert (H2 := f_equal (fun r => match r with Ok (_, b) => b | _ => JNull end) H). cbv beta iota in H1, H2. auto.
Qed.

(** ** ipv4 *)
Lemma chkIPv4_spec t u : chkIPv4AddrByte t = Ok u <->
  exists o, t = o ++ u /\ octet o u.
Proof.
  unfold octet. split.
  - unfold chkIPv4AddrByte. destruct t as [|a t1]; [discriminate|].
    destruct (isdigit a) eqn:Ea; [|discriminate].
    destruct t1 as [|b t2].
    { destruct (negb _) eqn:E; [|discriminate]. intros [= <-]. exists [a].
      split; [reflexivity|]. cbn [List.length]. apply isdigit_iff in Ea. split; [lia|]. split; [fsplit; auto|].
      rewrite dval_eq in E. split; [|congruence]. unfold decimal; cbn [fold_left]; lia. }
    destruct (isdigit b) eqn:Eb.
    2: { destruct (negb _) eqn:E; [|discriminate]. intros [= <-]. exists [a].
      split; [reflexivity|]. cbn [List.length]. apply isdigit_iff in Ea. split; [lia|]. split; [fsplit; auto|].
      rewrite dval_eq in E. split; [unfold decimal; cbn [fold_left]; lia|].
      intros _ c r [= <- <-]. apply isdigit_not. auto. }
    apply isdigit_iff in Ea, Eb.
    destruct t2 as [|c t3].
    { destruct (negb _) eqn:E; [|discriminate]. intros [= <-]. exists [a; b].
      split; [reflexivity|]. cbn [List.length]. split; [lia|]. split; [fsplit; auto|].
      rewrite !dval_eq in E. split; [|congruence]. unfold decimal; cbn [fold_left]; lia. }
    destruct (isdigit c) eqn:Ec.
    2: { destruct (negb _) eqn:E; [|discriminate]. intros [= <-]. exists [a; b].
      split; [reflexivity|]. cbn [List.length]. split; [lia|]. split; [fsplit; auto|].
      rewrite !dval_eq in E. split; [unfold decimal; cbn [fold_left]; lia|].
      intros _ x r [= <- <-]. apply isdigit_not. auto. }
    apply isdigit_iff in Ec.
    destruct (negb _) eqn:E; [|discriminate]. intros [= <-]. exists [a; b; c].
    split; [reflexivity|]. cbn [List.length]. split; [lia|]. split; [fsplit; auto|].
    rewrite !dval_eq in E. split; [unfold decimal; cbn [fold_left]; lia|]. lia.
  - intros (o & -> & Hl & HF & Hv & Hg).
    destruct o as [|a [|b [|c [|d o]]]]; cbn in Hl; try lia;
    repeat match goal with H : all_digits _ |- _ => unfold all_digits in H | H : Forall _ (_ :: _) |- _ => inversion H; clear H; subst end;
    repeat match goal with H : digit _ |- _ => apply isdigit_iff in H end;
    unfold decimal in Hv; cbn [fold_left] in Hv; rewrite <- ?dval_eq in Hv.
    + unfold chkIPv4AddrByte; cbn [app]. digs. destruct u as [|x u].
      * replace (255 <? dval a)%Z with false by lia. reflexivity.
      * specialize (Hg ltac:(cbn; lia) x u eq_refl). apply isdigit_not in Hg. rewrite Hg.
        replace (255 <? dval a)%Z with false by lia. reflexivity.
    + unfold chkIPv4AddrByte; cbn [app]. digs. destruct u as [|x u].
      * replace (255 <? _)%Z with false by lia. reflexivity.
      * specialize (Hg ltac:(cbn; lia) x u eq_refl). apply isdigit_not in Hg. rewrite Hg.
        replace (255 <? _)%Z with false by lia. reflexivity.
    + unfold chkIPv4AddrByte; cbn [app]. digs. replace (255 <? _)%Z with false by lia. reflexivity.
Qed.

Lemma expect_spec ch t u : expect ch t = Ok u <-> t = ch :: u.
Proof.
  destruct t as [|c t]; cbn; [split; discriminate|]. destruct (ceq c ch) eqn:E.
  - apply ceq_true in E. subst. split; [intros [= ->]; auto|intros [= ->]; auto].
  - apply ceq_false in E. split; [discriminate|]. intros [= -> ->]. congruence.
Qed.

Lemma octet_dot a b r : octet a (b :: r) -> ~ digit b -> octet a [b].
Proof.
  intros (H1 & H2 & H3 & H4) Hb. repeat split; auto; try tauto; try lia.
  intros Hl c r' [= <- <-]. auto.
Qed.
Lemma octet_dot' a b r : octet a [b] -> octet a (b :: r).
Proof.
  intros (H1 & H2 & H3 & H4). repeat split; auto; try tauto; try lia.
  intros Hl c r' [= <- <-]. eapply H4; eauto.
Qed.
Lemma dot_nd : ~ digit "."%char.
Proof. apply isdigit_not. reflexivity. Qed.

Lemma ipv4_core t u : (exists a b c d, t = a ++ L "." ++ b ++ L "." ++ c ++ L "." ++ d ++ u /\
    octet a (L ".") /\ octet b (L ".") /\ octet c (L ".") /\ octet d u) <->
  (let* u := chkIPv4AddrByte t in
  let* u := expect "." u in
  let* u := chkIPv4AddrByte u in
  let* u := expect "." u in
  let* u := chkIPv4AddrByte u in
  let* u := expect "." u in
  chkIPv4AddrByte u) = Ok u.
Proof.
  split.
  - intros (a & b & c & d & -> & Ha & Hb & Hc & Hd). cbn [L list_ascii_of_string app].
    rewrite (proj2 (chkIPv4_spec (a ++ "."%char :: b ++ "."%char :: c ++ "."%char :: d ++ u) ("."%char :: b ++ "."%char :: c ++ "."%char :: d ++ u))).
    2: { exists a. split; auto. apply octet_dot'; auto. }
    cbn [bind expect]. rewrite ceq_refl. cbn [bind].
    rewrite (proj2 (chkIPv4_spec (b ++ "."%char :: c ++ "."%char :: d ++ u) ("."%char :: c ++ "."%char :: d ++ u))).
    2: { exists b. split; auto. apply octet_dot'; auto. }
    cbn [bind expect]. rewrite ceq_refl. cbn [bind].
    rewrite (proj2 (chkIPv4_spec (c ++ "."%char :: d ++ u) ("."%char :: d ++ u))).
    2: { exists c. split; auto. apply octet_dot'; auto. }
    cbn [bind expect]. rewrite ceq_refl. cbn [bind].
    apply chkIPv4_spec. exists d. auto.
  - destruct (chkIPv4AddrByte t) as [u1| |] eqn:E1; try discriminate. cbn [bind].
    destruct (expect "." u1) as [u2| |] eqn:E2; try discriminate. cbn [bind].
    destruct (chkIPv4AddrByte u2) as [u3| |] eqn:E3; try discriminate. cbn [bind].
    destruct (expect "." u3) as [u4| |] eqn:E4; try discriminate. cbn [bind].
    destruct (chkIPv4AddrByte u4) as [u5| |] eqn:E5; try discriminate. cbn [bind].
    destruct (expect "." u5) as [u6| |] eqn:E6; try discriminate. cbn [bind]. intros E7.
    apply expect_spec in E2, E4, E6. subst u1 u3 u5.
    apply chkIPv4_spec in E1 as (a & -> & Ha), E3 as (b & -> & Hb), E5 as (c & -> & Hc), E7 as (d & -> & Hd).
    exists a, b, c, d. split; [reflexivity|].
    split; [eapply octet_dot; eauto using dot_nd|]. split; [eapply octet_dot; eauto using dot_nd|].
    split; [eapply octet_dot; eauto using dot_nd|exact Hd].
Qed.

Lemma ipv4_exact want t : takes_text (parseIPv4 want t) want t ipv4_g.
Proof.
  intros n v. unfold ipv4_g.
  transitivity (exists u, (7 <= List.length t) /\ (exists a b c d, t = a ++ L "." ++ b ++ L "." ++ c ++ L "." ++ d ++ u /\
    octet a (L ".") /\ octet b (L ".") /\ octet c (L ".") /\ octet d u) /\
    n = List.length t - List.length u /\ v = if want then JStr (firstn n t) else JNull).
  - unfold parseIPv4, ok_text, jsub. split.
    + destruct (Nat.ltb_spec (List.length t) 7) as [|H]; [discriminate|]. cbn [negb]. intros Hr.
      assert (Hc : exists u, (let* u := chkIPv4AddrByte t in let* u := expect "." u in let* u := chkIPv4AddrByte u in
        let* u := expect "." u in let* u := chkIPv4AddrByte u in let* u := expect "." u in chkIPv4AddrByte u) = Ok u
        /\ n = List.length t - List.length u /\ v = if want then JStr (firstn n t) else JNull).
      { repeat (match type of Hr with bind ?x _ = _ => destruct x; try discriminate Hr; cbn [bind] in Hr |- * end).
        cbn [bind]. injection Hr as <- <-. eexists; split; [reflexivity|]. auto. }
      destruct Hc as (u & Hu & Hn & Hv). exists u. split; auto. split; auto. apply ipv4_core; auto.
    + intros (u & Hlen & Hc & Hn & ->). apply ipv4_core in Hc.
      destruct (Nat.ltb_spec (List.length t) 7); [lia|]. cbn [negb].
      repeat (match type of Hc with bind ?x _ = _ => destruct x; try discriminate Hc; cbn [bind] in Hc |- * end).
      rewrite Hc. cbn [bind]. subst n. reflexivity.
  - split.
    + intros (u & _ & (a & b & c & d & -> & H) & -> & ->).
      exists (a ++ L "." ++ b ++ L "." ++ c ++ L "." ++ d), u.
      assert (Hl : List.length (a ++ L "." ++ b ++ L "." ++ c ++ L "." ++ d ++ u) - List.length u
         = List.length (a ++ L "." ++ b ++ L "." ++ c ++ L "." ++ d)) by (repeat (rewrite app_length; cbn); lia).
      rewrite Hl. 
      replace (a ++ L "." ++ b ++ L "." ++ c ++ L "." ++ d ++ u) with ((a ++ L "." ++ b ++ L "." ++ c ++ L "." ++ d) ++ u)
        by (rewrite <- !app_assoc; reflexivity).
      split; [reflexivity|]. split; [reflexivity|]. split; [exists a, b, c, d; split; [reflexivity|exact H]|].
      rewrite firstn_app_exact. reflexivity.
    + intros (pre & post & -> & -> & (a & b & c & d & -> & Ha & Hb & Hc & Hd) & ->). exists post.
      split.
      * unfold octet in *. repeat (rewrite app_length; cbn). lia.
      * split; [exists a, b, c, d; split; [rewrite <- !app_assoc; reflexivity|auto]|].
        rewrite firstn_app_exact. split; auto. rewrite (app_length _ post). lia.
Qed.

(** ** kernel-timestamp *)
Lemma rdall_digits n : forall t i, i <= List.length t ->
  rdall t i (repeat isdigit n) = Ok tt <-> (exists a b, skipn i t = a ++ b /\ List.length a = n /\ all_digits a).
Proof.
  induction n as [|n IH]; intros t i Hi; cbn [repeat rdall].
  - split; auto. intros _. exists [], (skipn i t). repeat split; auto. constructor.
  - unfold rd. rewrite nth_error_skipn_hd. destruct (skipn i t) as [|c r] eqn:E.
    + assert (i = List.length t).
      { pose proof (skipn_length i t) as HL. rewrite E in HL. cbn in HL. lia. }
      subst. rewrite Nat.eqb_refl. cbn [bind]. split; [discriminate|].
      intros (a & b & H & Hl & _). destruct a; discriminate.
    + cbn [bind]. assert (Hlt : i < List.length t).
      { pose proof (skipn_length i t) as HL. rewrite E in HL. cbn in HL. lia. }
      destruct (isdigit c) eqn:Ec.
      * rewrite IH by lia. rewrite (skipn_S_tl _ _ _ _ E). apply isdigit_iff in Ec. split.
        -- intros (a & b & -> & Hl & HF). exists (c :: a), b. cbn. repeat split; auto. constructor; auto.
        -- intros (a & b & H & Hl & HF). destruct a as [|x a]; [discriminate|]. cbn in H, Hl. injection H as -> ->.
           inversion HF; subst. exists a, b. repeat split; auto.
      * split; [discriminate|]. intros (a & b & H & Hl & HF). destruct a as [|x a]; [discriminate|].
        cbn in H. injection H as -> ->. inversion HF; subst. apply isdigit_not in Ec. contradiction.
Qed.

Lemma kernel_scan t k : scan isdigit (firstn k t) = Nat.min k (scan isdigit t).
Proof.
  revert k; induction t as [|c t IH]; intros [|k]; cbn [firstn scan]; auto.
  destruct (isdigit c); auto. rewrite IH. auto.
Qed.

Lemma rdall_app t : forall ps i qs, rdall t i (ps ++ qs) = bind (rdall t i ps) (fun _ => rdall t (i + List.length ps) qs).
Proof.
  induction ps as [|p ps IH]; intros i qs; cbn [rdall app List.length].
  - rewrite Nat.add_0_r. reflexivity.
  - destruct (rd t i) as [c| |]; cbn [bind]; auto. destruct (p c); cbn [bind]; auto.
    rewrite IH. replace (S i + List.length ps) with (i + S (List.length ps)) by lia. reflexivity.
Qed.

Lemma rd_skip (a b : text) k : rd (a ++ b) (List.length a + k) = rd b k.
Proof.
  unfold rd. rewrite nth_error_app2 by lia. rewrite app_length.
  replace (List.length a + k - List.length a) with k by lia.
  destruct (nth_error b k); auto.
  destruct (Nat.eqb_spec k (List.length b)), (Nat.eqb_spec (List.length a + k) (List.length a + List.length b)); auto; lia.
Qed.
Lemma rdall_skip (a b : text) ps : forall k, rdall (a ++ b) (List.length a + k) ps = rdall b k ps.
Proof.
  induction ps as [|p ps IH]; intros k; cbn [rdall]; auto. rewrite rd_skip.
  destruct (rd b k) as [c| |]; cbn [bind]; auto. destruct (p c); auto.
  replace (S (List.length a + k)) with (List.length a + S k) by lia. apply IH.
Qed.

Lemma scan_digits_app (a b : text) : all_digits a -> scan isdigit (a ++ b) = List.length a + scan isdigit b.
Proof.
  induction 1 as [|c a Hc HF IH]; cbn [app scan List.length]; auto.
  apply isdigit_iff in Hc. rewrite Hc, IH. reflexivity.
Qed.

Lemma all_digits_app a b : all_digits (a ++ b) <-> all_digits a /\ all_digits b.
Proof. unfold all_digits. apply Forall_app. Qed.

Lemma kernel_ts_exact want t : takes_text (parseKernelTimestamp want t) want t kernel_ts_g.
Proof.
  intros n v. unfold parseKernelTimestamp, kernel_ts_g. split.
  - destruct t as [|c0 t']; [discriminate|]. change (rd (c0 :: t') 0) with (Ok c0). cbn [bind].
    destruct (ceq c0 "[") eqn:E0; [|discriminate]. apply ceq_true in E0. subst c0.
    destruct (Nat.ltb_spec (List.length ("["%char :: t')) 14) as [|Hlen]; [discriminate|]. cbn [negb].
    destruct (rdall ("["%char :: t') 1 _) as [x| |] eqn:Er; try discriminate. destruct x. cbn [bind].
    apply (rdall_digits 5) in Er; [|cbn in *; lia]. destruct Er as (s1 & u & Hu & Hs1 & Hd1). cbn [skipn] in Hu. subst t'.
    replace (skipn 6 ("["%char :: s1 ++ u)) with u
      by (change 6 with (S 5); rewrite <- Hs1; symmetry; exact (skipn_app_exact s1 u)).
    rewrite kernel_scan. set (k := Nat.min 7 (scan isdigit u)).
    pose proof (scan_le isdigit u) as Hk0.
    destruct (Nat.ltb_spec (6 + k) (List.length ("["%char :: s1 ++ u))) as [Hi|]; [|discriminate].
    set (s2 := firstn k u). set (w := skipn k u).
    assert (Hu : u = s2 ++ w) by (symmetry; apply firstn_skipn).
    assert (Hs2 : List.length s2 = k) by (apply firstn_skipn_len; lia).
    assert (Hd2 : all_digits s2).
    { destruct (scan_spec isdigit u) as [HF _]. unfold s2. replace k with (Nat.min k (scan isdigit u)) by lia.
      rewrite <- firstn_firstn. apply Forall_forall. intros x Hx.
      assert (In x (firstn (scan isdigit u) u)) by (rewrite <- (firstn_skipn k (firstn (scan isdigit u) u)); apply in_or_app; auto).
      rewrite Forall_forall in HF. apply isdigit_iff. auto. }
    replace (rd ("["%char :: s1 ++ u) (6 + k)) with (rd w 0).
    2: { replace ("["%char :: s1 ++ u) with (("["%char :: s1 ++ s2) ++ w) by (rewrite Hu; cbn; rewrite <- app_assoc; reflexivity).
         replace (6 + k) with (List.length ("["%char :: s1 ++ s2) + 0) by (cbn [List.length]; rewrite app_length; lia).
         rewrite rd_skip. reflexivity. }
    assert (Hl : List.length ("["%char :: s1 ++ u) = 6 + k + List.length w)
      by (rewrite Hu; cbn [List.length]; rewrite !app_length; lia).
    rewrite Hl in *. assert (Hk7 : k <= 7) by lia. clearbody s2 w k. destruct w as [|c w]; [cbn in Hi; lia|].
    change (rd (c :: w) 0) with (Ok c). cbn [bind]. destruct (ceq c ".") eqn:Ec; [|discriminate].
    apply ceq_true in Ec. subst c.
    destruct (Nat.ltb_spec (6 + k + List.length ("."%char :: w)) (S (6 + k) + 7)) as [|Hl7]; [discriminate|]. cbn [negb].
    match goal with |- context [rdall ?a ?b ?c] => destruct (rdall a b c) as [x| |] eqn:Er end; try discriminate. destruct x. cbn [bind].
    replace ("["%char :: s1 ++ u) with (("["%char :: s1 ++ s2 ++ L ".") ++ w) in *
      by (rewrite Hu; cbn; rewrite <- !app_assoc; reflexivity).
    replace (S (6 + k)) with (List.length ("["%char :: s1 ++ s2 ++ L ".") + 0) in Er
      by (cbn [List.length]; rewrite !app_length; cbn [List.length L list_ascii_of_string]; lia).
    rewrite rdall_skip in Er.
    change [isdigit; isdigit; isdigit; isdigit; isdigit; isdigit; ceq "]"] with (repeat isdigit 6 ++ [ceq "]"]) in Er.
    rewrite rdall_app in Er. destruct (rdall w 0 (repeat isdigit 6)) as [x| |] eqn:Er1; try discriminate Er. cbn [bind] in Er. destruct x.
    apply (rdall_digits 6) in Er1; [|lia]. destruct Er1 as (us & z & Hz & Hus & Hdu). cbn [skipn] in Hz. subst w.
    replace (0 + List.length (repeat isdigit 6)) with (List.length us + 0) in Er by (cbn; lia). rewrite rdall_skip in Er.
    destruct z as [|q z]; [discriminate|]. change (rdall (q :: z) 0 [ceq "]"]) with (if ceq "]" q then Ok tt else Bad 0) in Er.
    destruct (ceq "]" q) eqn:Eq; [|discriminate]. apply ceq_true in Eq. subst q.
    intros Hok. apply ok_text_inv in Hok as [-> ->].
    exists (L "[" ++ (s1 ++ s2) ++ L "." ++ us ++ L "]"), z.
    assert (He : ("["%char :: s1 ++ s2 ++ L ".") ++ us ++ "]"%char :: z = (L "[" ++ (s1 ++ s2) ++ L "." ++ us ++ L "]") ++ z)
      by (appnorm; reflexivity).
    assert (HL : S (6 + k) + 7 = List.length (L "[" ++ (s1 ++ s2) ++ L "." ++ us ++ L "]")).
    { lens. }
    split; [exact He|]. split; [exact HL|]. split.
    + exists (s1 ++ s2), us. split; [reflexivity|]. rewrite all_digits_app, app_length. repeat split; auto; lia.
    + rewrite HL, He, firstn_app_exact. reflexivity.
  - intros (pre & post & -> & -> & (s & us & -> & Hd & Hs & Hdu & Hus) & ->).
    change (rd ((L "[" ++ s ++ L "." ++ us ++ L "]") ++ post) 0) with (Ok "["%char). cbn [bind]. rewrite ceq_refl.
    set (T := (L "[" ++ s ++ L "." ++ us ++ L "]") ++ post).
    assert (HT : T = "["%char :: s ++ "."%char :: us ++ "]"%char :: post) by (unfold T; appnorm; reflexivity).
    assert (HLT : List.length T = 9 + List.length s + List.length post)
      by (rewrite HT; lens).
    rewrite HLT. destruct (Nat.ltb_spec (9 + List.length s + List.length post) 14); [lia|]. cbn [negb].
    assert (H5 : rdall T 1 (repeat isdigit 5) = Ok tt).
    { apply rdall_digits; [lia|]. exists (firstn 5 s), (skipn 5 s ++ "."%char :: us ++ "]"%char :: post).
      rewrite HT. cbn [skipn]. rewrite app_assoc, firstn_skipn. split; [reflexivity|]. split; [rewrite firstn_length; lia|].
      rewrite <- (firstn_skipn 5 s) in Hd. apply all_digits_app in Hd. tauto. }
    cbn [repeat] in H5. rewrite H5. cbn [bind].
    assert (Hk : scan isdigit (firstn 7 (skipn 6 T)) = List.length s - 5).
    { rewrite kernel_scan. replace (skipn 6 T) with (skipn 5 s ++ "."%char :: us ++ "]"%char :: post).
      - rewrite scan_digits_app.
        + cbn [scan]. change (isdigit ".") with false. cbn [Nat.add]. rewrite skipn_length. lia.
        + rewrite <- (firstn_skipn 5 s) in Hd. apply all_digits_app in Hd. tauto.
      - rewrite HT. change (skipn 6 ("["%char :: s ++ "."%char :: us ++ "]"%char :: post)) with (skipn 5 (s ++ "."%char :: us ++ "]"%char :: post)). rewrite skipn_app. replace (5 - List.length s) with 0 by lia. reflexivity. }
    rewrite Hk. replace (6 + (List.length s - 5)) with (1 + List.length s) by lia.
    destruct (Nat.ltb_spec (1 + List.length s) (9 + List.length s + List.length post)); [|lia].
    replace (rd T (1 + List.length s)) with (Ok "."%char).
    2: { rewrite HT. symmetry. apply (rd_app1 ("["%char :: s)). reflexivity. }
    cbn [bind]. rewrite ceq_refl.
    destruct (Nat.ltb_spec (9 + List.length s + List.length post) (S (1 + List.length s) + 7)); [lia|]. cbn [negb].
    assert (H6 : rdall T (S (1 + List.length s)) (repeat isdigit 6 ++ [ceq "]"]) = Ok tt).
    { replace T with (("["%char :: s ++ L ".") ++ us ++ "]"%char :: post) by (rewrite HT; appnorm; reflexivity).
      replace (S (1 + List.length s)) with (List.length ("["%char :: s ++ L ".") + 0) by (cbn; rewrite app_length; cbn; lia).
      rewrite rdall_skip, rdall_app.
      rewrite (proj2 (rdall_digits 6 (us ++ "]"%char :: post) 0 (Nat.le_0_l _))) by (exists us, ("]"%char :: post); auto).
      cbn [bind]. change (0 + List.length (repeat isdigit 6)) with 6. rewrite <- Hus.
      cbn [rdall]. rewrite (rd_app1 us "]"%char post) by reflexivity. reflexivity. }
    cbn [repeat app] in H6. rewrite H6. cbn [bind]. unfold ok_text, jsub.
    replace (S (1 + List.length s) + 7) with (List.length (L "[" ++ s ++ L "." ++ us ++ L "]"))
      by lens.
    unfold T. rewrite firstn_app_exact. reflexivity.
Qed.
