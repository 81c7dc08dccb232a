(** * V1Text: the v1 field types take the texts of V1TextSpec. *)
From Verif Require Import Base BaseFacts Time Parsers FieldSpec FieldSpec2 DateSpec SafetySpec FieldFacts FieldFacts2 FieldFacts3 FieldFacts4 FieldFacts5 FieldFacts6 FieldFacts7 FieldFacts8 FieldFacts9 FieldFacts10 FieldFacts11 FieldFacts12 DateFacts ParserSafe ParserSafe2 V1 V1FieldSpec V1TextSpec.

Lemma vtext_takes t (r : pres) (G : text -> text -> Prop) : ~ In NUL t ->
  (forall n v, r = Ok (n, v) <-> exists pre post, t = pre ++ post /\ n = List.length pre /\ G pre post /\ v = JNull) ->
  takes_text (V1.vtext t r) true t G.
Proof.
  intros HN H n v. unfold V1.vtext. split.
  - intros E. apply bind_ok in E. destruct E as ([n' v'] & E & E2). injection E2 as <- <-. apply H in E. destruct E as (pre & post & -> & -> & HG & _).
    exists pre, post. rewrite firstn_app_exact, cstr_id; [auto|]. intros HI. apply HN, in_or_app. auto.
  - intros (pre & post & -> & -> & HG & ->). rewrite (proj2 (H (List.length pre) JNull)); [|exists pre, post; auto]. cbn [bind]. rewrite firstn_app_exact, cstr_id; [reflexivity|].
    intros HI. apply HN, in_or_app. auto.
Qed.
Lemma vtext_takes' t (r : pres) (G : text -> text -> Prop) : ~ In NUL t -> takes_text r false t G -> takes_text (V1.vtext t r) true t G.
Proof. intros HN H. apply vtext_takes; auto. Qed.

Lemma takes_iff r want t (G G' : text -> text -> Prop) : (forall pre post, t = pre ++ post -> (G pre post <-> G' pre post)) -> takes_text r want t G -> takes_text r want t G'.
Proof.
  intros HG H n v. rewrite (H n v). split; intros (pre & post & H1 & H2 & H3 & H4); exists pre, post; (split; [exact H1|]); (split; [exact H2|]); (split; [apply HG; auto|exact H4]).
Qed.

Lemma v1_number_exact t : takes_text (v1_number t) false t (fun pre post => pre <> [] /\ max_run digit pre post).
Proof.
  unfold v1_number. apply (takes_text_intro (negb (Nat.eqb (scan isdigit t) 0)) (scan isdigit t) false).
  - intros _. apply scan_le.
  - intros pre post ->. rewrite (max_run_scan _ _ isdigit_iff). rewrite negb_true_iff. split.
    + intros [H1 H2]. split; [|exact H2]. rewrite <- H2. apply len_nil. exact H1.
    + intros [H1 H2]. split; [|exact H2]. apply len_nil. rewrite H2. exact H1.
Qed.
Lemma v1_float_eq t : v1_float t = parseFloat FmtString false t.
Proof. reflexivity. Qed.
Lemma v1_hex_exact t : takes_text (v1_hex t) false t (fun pre post => exists hs, pre = L "0x" ++ hs /\ Forall hexdigit hs /\ exists c r, post = c :: r /\ space c).
Proof.
  assert (HX : v1_hex t = parseHexNumber FmtString 0 false t).
  { unfold v1_hex, parseHexNumber. destruct (rd t 0) as [c0| |]; cbn [bind]; try reflexivity. destruct (ceq c0 "0"); try reflexivity.
    destruct (rd t 1) as [c1| |]; cbn [bind]; try reflexivity. destruct (ceq c1 "x"); try reflexivity.
    assert (HL : forall u v, snd (hex_loop v u) = scan isxdigit u).
    { induction u as [|c u IH]; intros v; [reflexivity|]. cbn [hex_loop scan]. destruct (isxdigit c); [|reflexivity]. specialize (IH ((v * 16 + hexval c) mod 2 ^ 64)%Z). destruct (hex_loop _ u) as [w n]. cbn [snd] in *. congruence. }
    specialize (HL (skipn 2 t) 0%Z). destruct (hex_loop 0 (skipn 2 t)) as [w n]. cbn [snd] in HL. subst n.
    destruct (rd t (2 + scan isxdigit (skipn 2 t))) as [c| |]; cbn [bind]; reflexivity. }
  intros n v. rewrite HX. rewrite (proj1 (hex_exact FmtString 0 false t) eq_refl n v). unfold hex_g.
  split; intros (pre & post & H1 & H2 & (hs & H3 & H4 & H5) & H6); exists pre, post; (split; [exact H1|]); (split; [exact H2|]); (split; [exists hs; (split; [exact H3|]); (split; [exact H4|])|exact H6]).
  - apply H5. - split; [exact H5|lia].
Qed.
Lemma cterm_iff e c x : is_cterm e c x = true <-> ends_v1 e c x.
Proof.
  unfold is_cterm, ends_v1. rewrite andb_true_iff, ceq_true, orb_true_iff, negb_true_iff, N.ltb_lt. unfold code.
  split; intros [H1 H2]; (split; [auto|]); destruct (char_signed e); intuition congruence.
Qed.
Lemma not_cterm_iff e c x : negb (is_cterm e c x) = true <-> ~ ends_v1 e c x.
Proof. rewrite <- cterm_iff. destruct (is_cterm e c x); cbn; intuition congruence. Qed.
Lemma v1_charsep_exact e f c t : vf_data f = Some [c] -> takes_text (v1_charsep e (vf_data f) t) false t (fun pre post => exists c, vf_data f = Some [c] /\ max_run (fun x => ~ ends_v1 e c x) pre post).
Proof.
  intros HD. apply takes_iff with (G := fun pre post => max_run (fun x => ~ ends_v1 e c x) pre post).
  { intros pre post _. rewrite HD. split; [eauto|]. intros (c' & [= <-] & H). exact H. }
  unfold v1_charsep. rewrite HD. cbn [cterm_of bind]. apply (takes_text_intro true (scan (fun x => negb (is_cterm e c x)) t) false).
  - intros _. apply scan_le.
  - intros pre post ->. rewrite (max_run_scan _ _ (not_cterm_iff e c)). tauto.
Qed.
Lemma v1_charto_exact e f c t : vf_data f = Some [c] -> takes_text (v1_charto e (vf_data f) t) false t
  (fun pre post => exists c, vf_data f = Some [c] /\ pre <> [] /\ Forall (fun x => ~ ends_v1 e c x) pre /\ exists x r, post = x :: r /\ ends_v1 e c x).
Proof.
  intros HD. apply takes_iff with (G := fun pre post => pre <> [] /\ Forall (fun x => ~ ends_v1 e c x) pre /\ exists x r, post = x :: r /\ ends_v1 e c x).
  { intros pre post _. rewrite HD. split; [eauto|]. intros (c' & [= <-] & H). exact H. }
  unfold v1_charto. rewrite HD. cbn [cterm_of bind]. set (k := scan _ t).
  eapply takes_text_ext with (r' := if (negb (Nat.eqb k 0) && negb (Nat.eqb k (List.length t)))%bool then ok_text false t k else Bad 0).
  { destruct (Nat.eqb k 0); cbn; auto. }
  apply takes_text_intro.
  - intros _. apply scan_le.
  - intros pre post Ht.
    assert (HM : (max_run (fun x => ~ ends_v1 e c x) pre post) <-> List.length pre = k).
    { subst k. rewrite Ht. apply max_run_scan. apply not_cterm_iff. }
    rewrite andb_true_iff, !negb_true_iff. split.
    + intros (Hn & HF & x & r & -> & Hc).
      assert (H : List.length pre = k).
      { apply HM. split; auto. intros c0 r0 [= -> ->]. tauto. }
      split; auto. split.
      * rewrite <- H. apply len_nil; auto.
      * apply Nat.eqb_neq. rewrite Ht, app_length. cbn. lia.
    + intros [[H1 H2] H3]. destruct (proj2 HM H3) as [HF Hst].
      split; [apply len_nil; congruence|]. split; auto.
      destruct post as [|x r].
      * apply Nat.eqb_neq in H2. rewrite Ht, app_nil_r in H2. congruence.
      * exists x, r. split; auto. specialize (Hst x r eq_refl).
        rewrite <- cterm_iff. rewrite <- cterm_iff in Hst. destruct (is_cterm e c x); intuition congruence.
Qed.
Lemma v1_stringto_exact e f s t : vf_data f = Some s -> 2 <= List.length s -> ~ In NUL s ->
  takes_text (v1_stringto e (vf_data f) t) false t (fun pre post => exists s, vf_data f = Some s /\ string_to_g s pre post).
Proof.
  intros HD HL HN. apply takes_iff with (G := string_to_g s).
  { intros pre post _. rewrite HD. split; [eauto|]. intros (s' & [= <-] & H). exact H. }
  unfold v1_stringto. rewrite HD. replace (existsb (ceq NUL) s || (is_nil s && existsb (ceq NUL) t))%bool with false.
  - apply string_to_exact; auto.
  - symmetry. apply orb_false_iff. split; [|destruct s; [cbn in HL; lia|reflexivity]]. apply Bool.not_true_iff_false. intros H. apply existsb_exists in H. destruct H as (x & H1 & H2). apply ceq_true in H2. subst. auto.
Qed.

Theorem plain_exact e f t (before : text) : plain_type (vf_kind f) = true -> v1_usable f t -> ~ In NUL t -> forall o v,
  run_v1 e (before ++ t) f (List.length before) = Ok (o, v) <->
  exists pre post, t = pre ++ post /\ o = List.length before + List.length pre /\ v1_takes e f pre post /\ v = JStr pre.
Proof.
  intros HK HU HN o v.
  assert (HF : forall r : pres, takes_text r true t (v1_takes e f) ->
    ((let* (n, w) := r in Ok (List.length before + n, w)) = Ok (o, v) <->
     exists pre post, t = pre ++ post /\ o = List.length before + List.length pre /\ v1_takes e f pre post /\ v = JStr pre)).
  { intros r H. split.
    - intros E. apply bind_ok in E. destruct E as ([n w] & E & E2). injection E2 as <- <-. apply H in E. destruct E as (pre & post & H1 & -> & H3 & H4). exists pre, post. auto.
    - intros (pre & post & H1 & -> & H3 & H4). rewrite (proj2 (H (List.length pre) v)); [reflexivity|]. exists pre, post. auto. }
  unfold run_v1. rewrite skipn_app_exact. unfold v1_usable in HU.
  destruct (vf_kind f) eqn:EK; try discriminate HK; clear HK; apply HF; unfold v1_takes; rewrite EK; try (apply vtext_takes'; [exact HN|]).
  - intros n w. rewrite rfc3164_exact by exact HU. split.
    + intros (pre & post & s & H1 & H2 & H3 & H4). exists pre, post. eauto.
    + intros (pre & post & H1 & H2 & (s & H3) & H4). exists pre, post, s. auto.
  - intros n w. rewrite rfc5424_exact by exact HU. split.
    + intros (pre & post & s & H1 & H2 & H3 & H4 & H5). exists pre, post. eauto 8.
    + intros (pre & post & H1 & H2 & (s & H3 & H4) & H5). exists pre, post, s. auto.
  - apply v1_number_exact.
  - rewrite v1_float_eq. apply float_exact.
  - apply v1_hex_exact.
  - apply kernel_ts_exact.
  - apply whitespace_exact.
  - apply ipv4_exact.
  - apply ipv6_exact.
  - apply word_exact.
  - apply alpha_exact.
  - apply rest_exact.
  - apply date_iso_exact.
  - apply time24_exact.
  - apply time12_exact.
  - apply duration_exact.
  - apply mac48_exact.
  - destruct HU as (s & H1 & H2 & H3). eapply v1_stringto_exact; eauto.
  - destruct HU as (c & H1). eapply v1_charto_exact; eauto.
  - destruct HU as (c & H1). eapply v1_charsep_exact; eauto.
Qed.

(** ** Structured types *)
Lemma quoted_exact1 t n v : v1_quoted t = Ok (n, v) <->
  exists inner post, t = L """" ++ inner ++ L """" ++ post /\ ~ In """"%char inner /\ n = List.length inner + 2 /\ v = JStr (cstr inner).
Proof.
  unfold v1_quoted. split.
  - destruct (Nat.ltb_spec (List.length t) 2) as [HH|HL]; [discriminate|]. cbn [negb]. destruct t as [|c t]; [cbn in HL; lia|]. change (rd (c :: t) 0) with (Ok c). cbn [bind].
    destruct (ceq c """") eqn:Ec; [|discriminate]. apply ceq_true in Ec. subst c. change (skipn 1 ("""" :: t)%char) with t.
    destruct (run_split (fun c => negb (ceq c """")) t) as (a & b & -> & Ha & Hb & Hs). rewrite Hs. destruct (Nat.eqb_spec (1 + List.length a) (List.length ("""" :: a ++ b)%char)) as [HH|HH]; [discriminate|]. cbn [negb].
    destruct b as [|d b]. { exfalso. apply HH. cbn [List.length]. rewrite app_nil_r. reflexivity. }
    assert (HR : rd ("""" :: a ++ d :: b)%char (1 + List.length a) = Ok d).
    { change ("""" :: a ++ d :: b)%char with (("""" :: a) ++ d :: b)%char. apply rd_app1. reflexivity. }
    rewrite HR. cbn [bind]. destruct (ceq d """") eqn:Ed; [|discriminate]. apply ceq_true in Ed. subst d. replace (1 + List.length a - 1) with (List.length a) by lia. rewrite firstn_app_exact.
    intros [= <- <-]. exists a, b. split; [reflexivity|]. split; [apply scan_notin; exact Ha|]. split; [lia|reflexivity].
  - intros (a & b & -> & Ha & -> & ->).
    assert (HLn : List.length (L """" ++ a ++ L """" ++ b) = 2 + List.length a + List.length b) by (rewrite !app_length; cbn [L list_ascii_of_string List.length]; lia).
    rewrite HLn. destruct (Nat.ltb_spec (2 + List.length a + List.length b) 2) as [HH|_]; [lia|]. cbn [negb]. change (rd (L """" ++ a ++ L """" ++ b) 0) with (Ok """"%char). cbn [bind].
    rewrite ceq_refl. change (skipn 1 (L """" ++ a ++ L """" ++ b)) with (a ++ """"%char :: b).
    assert (HS : scan (fun c => negb (ceq c """")) (a ++ """"%char :: b) = List.length a).
    { apply scan_stop; [apply notin_scan; exact Ha|]. intros c r [= <- _]. rewrite ceq_refl. reflexivity. }
    rewrite HS. destruct (Nat.eqb_spec (1 + List.length a) (2 + List.length a + List.length b)) as [HH|_]; [lia|]. cbn [negb].
    assert (HR : rd (L """" ++ a ++ L """" ++ b) (1 + List.length a) = Ok """"%char).
    { change (L """" ++ a ++ L """" ++ b) with ((L """" ++ a) ++ """"%char :: b). apply rd_app1. reflexivity. }
    rewrite HR. cbn [bind]. rewrite ceq_refl. replace (1 + List.length a - 1) with (List.length a) by lia. rewrite firstn_app_exact. f_equal. f_equal. lia.
Qed.

Lemma cisco_get s pre post : ~ In NUL (pre ++ post) ->
  (match cisco_value s with
   | JObj o => match obj_get o (L "ip2"), obj_get o (L "user") with
               | None, None => if Nat.eqb (List.length pre) (List.length (pre ++ post)) then V1.vtext (pre ++ post) (Ok (List.length pre, JNull)) else Ok (List.length pre, cisco_value s)
               | _, _ => Ok (List.length pre, cisco_value s)
               end
   | _ => Ok (List.length pre, cisco_value s)
   end) = Ok (List.length pre, v1_cisco_value s pre post).
Proof.
  intros HN.
  assert (HE : Nat.eqb (List.length pre) (List.length (pre ++ post)) = match post with [] => true | _ => false end).
  { destruct post; [rewrite app_nil_r; apply Nat.eqb_refl|]. apply Nat.eqb_neq. rewrite app_length. cbn. lia. }
  assert (HV : V1.vtext (pre ++ post) (Ok (List.length pre, JNull)) = Ok (List.length pre, JStr pre)).
  { unfold V1.vtext. cbn [bind]. rewrite firstn_app_exact, cstr_id; [reflexivity|]. intros Hi. apply HN, in_or_app. auto. }
  rewrite HE, HV. unfold v1_cisco_value, cisco_value. destruct s as [[i|] ip port [[[a b] c]|] [[x y]|]]; cbn [c_iface c_ip c_port c_second c_user app]; unfold obj_get, get;
  cbn; destruct post; reflexivity.
Qed.
Lemma cisco_exact1 e t n v : ~ In NUL t -> v1_cisco e t = Ok (n, v) <->
  exists s pre post, t = pre ++ post /\ n = List.length pre /\ cisco_g s t post /\ v = v1_cisco_value s pre post.
Proof.
  intros HN. unfold v1_cisco. split.
  - intros H. apply bind_ok in H. destruct H as ([n1 v1] & H1 & H2). apply cisco_exact in H1; [|left; reflexivity].
    destruct H1 as (s & pre & post & -> & -> & HG & ->). exists s, pre, post. rewrite cisco_get in H2 by exact HN. injection H2 as <- <-. auto.
  - intros (s & pre & post & -> & -> & HG & ->).
    rewrite (proj2 (cisco_exact (wrapping e) true (pre ++ post) (List.length pre) (cisco_value s) (or_introl eq_refl))); [|exists s, pre, post; auto]. cbn [bind]. apply cisco_get. exact HN.
Qed.

(** ** name-value-list *)
Lemma nspace_iff c : negb (isspace c) = true <-> ~ space c.
Proof. rewrite <- isspace_iff. destruct (isspace c); cbn; intuition congruence. Qed.
Lemma name_eq : isValidNameChar "="%char = false. Proof. reflexivity. Qed.
Lemma v1_nv_sound : forall f u o o', v1_nv f u o = Ok o' -> exists l, v1_nv_g u l /\ o' = fold_left (fun o m => obj_add o (fst m) (snd m)) (map v1_nv_member l) o.
Proof.
  induction f as [|f IH]; intros u o o'; [discriminate|]. cbn [v1_nv]. destruct u as [|c0 u0].
  { intros [= <-]. exists []. split; [constructor|reflexivity]. }
  remember (c0 :: u0) as u. clear Hequ c0 u0.
  destruct (run_split isValidNameChar u) as (nm & u1 & -> & Hn & Hu1 & Hs). rewrite Hs.
  destruct (Nat.eqb_spec (List.length nm) 0) as [HH|HH]; [discriminate|]. cbn [negb].
  destruct u1 as [|c u1].
  { rewrite app_nil_r. unfold rd. rewrite (proj2 (nth_error_None nm (List.length nm))) by lia. rewrite Nat.eqb_refl. cbn [bind]. discriminate. }
  rewrite rd_app1 by reflexivity. cbn [bind]. destruct (ceq c "=") eqn:Ec; [|discriminate]. apply ceq_true in Ec. subst c.
  replace (skipn (S (List.length nm)) (nm ++ "="%char :: u1)) with u1.
  2: { replace (S (List.length nm)) with (List.length nm + 1) by lia. rewrite skipn_at. reflexivity. }
  rewrite firstn_app_exact.
  destruct (run_split (fun c => negb (isspace c)) u1) as (v & w & -> & Hv & Hw & Hsv). rewrite Hsv, skipn_app_exact, firstn_app_exact.
  destruct (run_split isspace w) as (b & r & -> & Hb & Hr & Hsb). rewrite Hsb, skipn_app_exact. intros H. apply IH in H. destruct H as (l & HG & ->).
  exists ((nm, v) :: l). split; [|reflexivity]. constructor.
  - intros ->. apply HH. reflexivity.
  - eapply Forall_impl; [|exact Hn]. intros c. apply name_iff.
  - eapply Forall_impl; [|exact Hv]. intros c. apply nspace_iff.
  - eapply Forall_impl; [|exact Hb]. intros c. apply isspace_iff.
  - intros HNe ->. destruct r as [|c r]; [congruence|]. specialize (Hr c r eq_refl). specialize (Hw c r eq_refl). rewrite Hr in Hw. discriminate.
  - intros c q ->. specialize (Hr c q eq_refl). rewrite <- isspace_iff. congruence.
  - exact HG.
Qed.
Lemma v1_nv_complete : forall u l, v1_nv_g u l -> forall f o, List.length u < f -> v1_nv f u o = Ok (fold_left (fun o m => obj_add o (fst m) (snd m)) (map v1_nv_member l) o).
Proof.
  induction 1 as [|nm v b u l H1 H2 H3 H4 H5 H6 HG IH]; intros f o Hf; (destruct f as [|f]; [lia|]); [reflexivity|].
  cbn [v1_nv]. destruct (nm ++ "="%char :: v ++ b ++ u) as [|c0 u0] eqn:E0; [destruct nm; discriminate|]. rewrite <- E0. rewrite <- E0 in Hf. clear E0 c0 u0.
  assert (HS : scan isValidNameChar (nm ++ "="%char :: v ++ b ++ u) = List.length nm).
  { apply scan_stop; [eapply Forall_impl; [|exact H2]; intros c; apply name_iff|]. intros c r [= <- _]. reflexivity. }
  rewrite HS. destruct (Nat.eqb_spec (List.length nm) 0) as [HH|_]; [destruct nm; [congruence|discriminate]|]. cbn [negb].
  rewrite rd_app1 by reflexivity. cbn [bind]. rewrite ceq_refl.
  replace (skipn (S (List.length nm)) (nm ++ "="%char :: v ++ b ++ u)) with (v ++ b ++ u).
  2: { replace (S (List.length nm)) with (List.length nm + 1) by lia. rewrite skipn_at. reflexivity. }
  rewrite firstn_app_exact.
  assert (HSv : scan (fun c => negb (isspace c)) (v ++ b ++ u) = List.length v).
  { apply scan_stop; [eapply Forall_impl; [|exact H3]; intros c; apply nspace_iff|]. intros c r E. apply negb_false_iff, isspace_iff.
    destruct b as [|d b]; [destruct u; [discriminate|exfalso; apply H5; [discriminate|reflexivity]]|]. injection E as <- _. apply Forall_inv in H4. exact H4. }
  rewrite HSv, skipn_app_exact, firstn_app_exact.
  assert (HSb : scan isspace (b ++ u) = List.length b).
  { apply scan_stop; [eapply Forall_impl; [|exact H4]; intros c; apply isspace_iff|]. intros c r ->. apply Bool.not_true_iff_false. rewrite isspace_iff. apply (H6 c r eq_refl). }
  rewrite HSb, skipn_app_exact. rewrite IH; [reflexivity|]. rewrite app_length in Hf. cbn [List.length] in Hf. rewrite !app_length in Hf. lia.
Qed.
Lemma nvlist_exact1 t n v : v1_nvlist t = Ok (n, v) <-> n = List.length t /\ exists l, v1_nv_g t l /\ v = stored_in_order (map v1_nv_member l).
Proof.
  unfold v1_nvlist, stored_in_order. split.
  - intros H. apply bind_ok in H. destruct H as (o & H & E). injection E as <- <-. apply v1_nv_sound in H. destruct H as (l & HG & ->). eauto.
  - intros (-> & l & HG & ->). rewrite (v1_nv_complete t l HG) by lia. reflexivity.
Qed.

(** ** checkpoint-lea *)
Lemma lea_same : forall f u nf v, ~ In NUL u -> v1_lea f u nf v = lea_loop f NUL true u nf v.
Proof.
  induction f as [|f IH]; intros u nf v HN; [reflexivity|]. cbn [v1_lea lea_loop]. destruct u as [|c0 u0]; [reflexivity|]. remember (c0 :: u0) as u. clear Hequ c0 u0.
  destruct (run_split (ceq " ") u) as (b1 & u1 & -> & Hb1 & Hu1 & Hs). rewrite Hs, skipn_app_exact.
  assert (HN1 : ~ In NUL u1) by (intros Hi; apply HN, in_or_app; auto). destruct u1 as [|c u1]; [reflexivity|].
  replace (ceq c NUL) with false by (symmetry; apply ceq_false; intros ->; apply HN1; left; reflexivity).
  remember (c :: u1) as w. clear Heqw c u1 Hu1 HN.
  destruct (run_split (fun c => negb (ceq c ":")) w) as (nm & r & -> & Hnm & Hr & Hsn). rewrite Hsn.
  destruct (Nat.ltb_spec (List.length nm + 1) (List.length (nm ++ r))) as [Hl|Hl]; [|reflexivity].
  destruct r as [|c r]; [rewrite app_nil_r in Hl; lia|]. rewrite rd_app1 by reflexivity. cbn [bind]. specialize (Hr c r eq_refl). apply negb_false_iff in Hr. rewrite Hr.
  replace (skipn (S (List.length nm)) (nm ++ c :: r)) with r.
  2: { replace (S (List.length nm)) with (List.length nm + 1) by lia. rewrite skipn_at. reflexivity. }
  assert (HN2 : ~ In NUL r) by (intros Hi; apply HN1, in_or_app; right; right; exact Hi). clear HN1 Hl.
  destruct (run_split (ceq " ") r) as (b2 & u3 & -> & Hb2 & Hu3 & Hs2). rewrite Hs2, skipn_app_exact.
  destruct (run_split (fun c => negb (ceq c ";")) u3) as (vl & r3 & -> & Hvl & Hr3 & Hsl). rewrite Hsl.
  destruct (Nat.ltb_spec (List.length (vl ++ r3)) (List.length vl + 1)) as [Hl|Hl]; [reflexivity|]. cbn [negb].
  destruct r3 as [|d r3]; [rewrite app_nil_r in Hl; lia|]. rewrite rd_app1 by reflexivity. cbn [bind]. specialize (Hr3 d r3 eq_refl). apply negb_false_iff in Hr3. rewrite Hr3.
  rewrite IH; [reflexivity|]. replace (skipn (S (List.length vl)) (vl ++ d :: r3)) with r3.
  2: { replace (S (List.length vl)) with (List.length vl + 1) by lia. rewrite skipn_at. reflexivity. }
  intros Hi. apply HN2, in_or_app. right. apply in_or_app. right. right. exact Hi.
Qed.
Lemma lea_exact1 t n v : ~ In NUL t -> v1_lea (S (List.length t)) t 0 JNull = Ok (n, v) <->
  n = List.length t /\ exists fs, lea_g NUL fs t t [] /\ v = match fs with [] => JNull | _ => stored_in_order (map lea_member fs) end.
Proof.
  intros HN. rewrite lea_same by exact HN. change (lea_loop (S (List.length t)) NUL true t 0 JNull) with (parseLEA NUL true t). rewrite lea_exact. split.
  - intros (fs & pre & post & HG & -> & ->). pose proof HG as (_ & HT & b & _ & _ & [[-> _]|(r & -> & _)]).
    + rewrite app_nil_r in HT. subst pre. split; [reflexivity|]. exists fs. split; [exact HG|]. destruct fs; reflexivity.
    + exfalso. apply HN. rewrite HT. apply in_or_app. right. left. reflexivity.
  - intros (-> & fs & HG & ->). exists fs, t, []. split; [exact HG|]. split; [reflexivity|]. destruct fs; reflexivity.
Qed.

(** ** cef *)
Lemma no_slash_sfx (t a u : text) : no_slash t -> t = a ++ u -> no_slash u.
Proof. intros H -> b r ->. apply (H (a ++ b) r). rewrite <- app_assoc. reflexivity. Qed.
Lemma no_slash_skipn t k : no_slash t -> no_slash (skipn k t).
Proof. intros H. eapply no_slash_sfx; [exact H|]. symmetry. apply firstn_skipn. Qed.
Lemma val_same : forall u i last sp esc, no_slash u -> (esc = true -> forall r, u <> "/"%char :: r) -> v1_cef_val u i last sp esc = cef_val_loop u i last sp esc.
Proof.
  induction u as [|c u IH]; intros i last sp esc HN HE; [reflexivity|]. cbn [v1_cef_val cef_val_loop].
  assert (HN' : no_slash u) by (eapply (no_slash_sfx (c :: u) [c]); [exact HN|reflexivity]).
  destruct esc.
  - replace (ceq c "/") with false by (symmetry; apply ceq_false; intros ->; apply (HE eq_refl u); reflexivity). rewrite orb_false_r.
    destruct (ceq c "=" || ceq c "\" || ceq c "r" || ceq c "n")%bool; [|reflexivity]. apply IH; [exact HN'|discriminate].
  - destruct (ceq c "="); [reflexivity|]. destruct (ceq c "\") eqn:Eb.
    + apply ceq_true in Eb. subst c. apply IH; [exact HN'|]. intros _ r ->. apply (HN [] r). reflexivity.
    + destruct (ceq c " "); [apply IH; [exact HN'|discriminate]|]. destruct sp; (apply IH; [exact HN'|discriminate]).
Qed.
Lemma unesc_same : forall f u len, List.length u < f -> no_slash u -> v1_cef_unesc len u = cef_unesc len u.
Proof.
  induction f as [|f IH]; intros u len Hf HN; [lia|]. destruct len as [|len]; [destruct u; reflexivity|]. destruct u as [|c u]; [reflexivity|]. cbn [v1_cef_unesc cef_unesc List.length] in *.
  assert (HN' : no_slash u) by (eapply (no_slash_sfx (c :: u) [c]); [exact HN|reflexivity]).
  destruct (ceq c "\") eqn:Eb; [|rewrite IH; [reflexivity|lia|exact HN']]. apply ceq_true in Eb. subst c.
  destruct u as [|d u]; [rewrite IH; [reflexivity|cbn; lia|intros a r E; destruct a; discriminate]|]. cbn [List.length] in Hf.
  replace (ceq d "/") with false by (symmetry; apply ceq_false; intros ->; apply (HN [] u); reflexivity).
  rewrite IH; [reflexivity|lia|]. eapply (no_slash_sfx (d :: u) [d]); [exact HN'|reflexivity].
Qed.
Lemma ext_same t store : no_slash t -> (forall a, t <> a ++ L "=") -> forall f i o, v1_cef_ext f t i store o = cef_ext f t i store o.
Proof.
  intros HN HE. induction f as [|f IH]; intros i o; [reflexivity|]. cbn [v1_cef_ext cef_ext]. destruct (Nat.ltb_spec i (List.length t)) as [Hi|Hi]; [|reflexivity]. cbn [negb].
  pose proof (scan_le (ceq " ") (skipn i t)) as Hsc. rewrite skipn_length in Hsc.
  remember (i + scan (ceq " ") (skipn i t)) as i1. assert (Hi1 : i1 <= List.length t) by lia. clear Heqi1 Hsc.
  pose proof (cef_name_safe Unone (skipn i1 t)) as HCN. destruct (cef_name (skipn i1 t)) as [ln| |]; cbn [bind]; try reflexivity. cbn [post] in HCN. rewrite skipn_length in HCN.
  remember (i1 + ln) as k. assert (Hk0 : k <= List.length t) by lia. clear Heqk HCN.
  destruct (rd t k) as [c| |] eqn:ER; cbn [bind].
  - destruct (ceq c "=") eqn:Ec.
    + apply ceq_true in Ec. subst c.
      assert (HK : k + 1 < List.length t).
      { unfold rd in ER. destruct (nth_error t k) as [d|] eqn:EN; [|destruct (Nat.eqb k (List.length t)); discriminate]. injection ER as ->.
        destruct (nth_error_split t k EN) as (l1 & l2 & HT & HL). destruct l2 as [|x l2]; [exfalso; apply (HE l1); exact HT|]. rewrite HT, app_length, HL. cbn [List.length]. lia. }
      destruct (Nat.ltb_spec (k + 1) (List.length t)) as [_|HH]; [|lia]. destruct (Nat.ltb_spec k (List.length t)) as [_|HH]; [|lia].
      unfold cefParseExtensionValue. rewrite val_same; [|apply no_slash_skipn; exact HN|discriminate].
      destruct (cef_val_loop (skipn (S k) t) (S k) 0 false false) as [[j last]| |]; cbn [bind]; try reflexivity.
      assert (HJ : forall j', (let* o0 := if store then let* v := cstr_init (v1_cef_unesc (j' - S k) (skipn (S k) t)) in Ok (obj_add o (cstr (sub t i1 ln)) (JStr v)) else Ok o in v1_cef_ext f t (S j') store o0) =
                           (let* o0 := if store then let* v := cstr_init (cef_unesc (j' - S k) (skipn (S k) t)) in Ok (obj_add o (cstr (sub t i1 ln)) (JStr v)) else Ok o in cef_ext f t (S j') store o0)).
      { intros j'. rewrite (unesc_same (S (List.length (skipn (S k) t)))) by (first [lia|apply no_slash_skipn; exact HN]).
        destruct store; [destruct (cstr_init _); cbn [bind]; auto|cbn [bind]; apply IH]. }
      destruct (Nat.ltb j (List.length t)); cbn [bind]; apply HJ.
    + destruct (Nat.ltb (k + 1) (List.length t)); reflexivity.
  - destruct (Nat.ltb (k + 1) (List.length t)); unfold rd in ER; destruct (nth_error t k); try discriminate; destruct (Nat.eqb k (List.length t)); discriminate.
  - unfold rd in ER. destruct (nth_error t k) eqn:EN; [discriminate|]. apply nth_error_None in EN. assert (k = List.length t) by lia. subst k. rewrite Nat.eqb_refl in ER. discriminate.
Qed.

Lemma v1_cef_header e t n v : v1_cef e t = Ok (n, v) ->
  exists hs h rest o, cef_header e hs h /\ t = h ++ rest /\ n = S (List.length h) /\ v = cef_value hs (JObj o).
Proof.
  unfold v1_cef. intros H. destruct (Nat.ltb_spec (List.length t) 17) as [HH|HL]; [discriminate|]. cbn [negb] in H.
  apply bind_ok in H. destruct H as ([] & HP & H). apply pfx6 in HP; [|lia]. destruct HP as (u & ->).
  change (skipn 6 (L "CEF:0|" ++ u)) with u in H.
  apply bind_ok in H. destruct H as ([v1 u1] & H1 & H). apply bind_ok in H. destruct H as ([v2 u2] & H2 & H). apply bind_ok in H. destruct H as ([v3 u3] & H3 & H).
  apply bind_ok in H. destruct H as ([v4 u4] & H4 & H). apply bind_ok in H. destruct H as ([v5 u5] & H5 & H). apply bind_ok in H. destruct H as ([v6 u6] & H6 & H).
  apply hdr_field in H1, H2, H3, H4, H5, H6.
  destruct H1 as (h1 & A1 & B1 & C1 & D1). destruct H2 as (h2 & A2 & B2 & C2 & D2). destruct H3 as (h3 & A3 & B3 & C3 & D3).
  destruct H4 as (h4 & A4 & B4 & C4 & D4). destruct H5 as (h5 & A5 & B5 & C5 & D5). destruct H6 as (h6 & A6 & B6 & C6 & D6).
  apply bind_ok in H. destruct H as (o0 & _ & H). apply bind_ok in H. destruct H as (o & _ & H).
  assert (HT : L "CEF:0|" ++ u = (L "CEF:0|" ++ six [h1;h2;h3;h4;h5;h6]) ++ u6).
  { subst. unfold six. cbn [flat_map]. rewrite app_nil_r, <- !app_assoc. reflexivity. }
  exists [h1;h2;h3;h4;h5;h6], (L "CEF:0|" ++ six [h1;h2;h3;h4;h5;h6]), u6, o.
  split.
  { split; [reflexivity|]. split; [repeat (apply Forall_cons; [assumption|]); constructor|]. split; [intros Ha; repeat (apply Forall_cons; [auto|]); constructor|reflexivity]. }
  split; [exact HT|]. rewrite HT in H. rewrite app_length in H. replace (List.length (L "CEF:0|" ++ six [h1;h2;h3;h4;h5;h6]) + List.length u6 - List.length u6) with (List.length (L "CEF:0|" ++ six [h1;h2;h3;h4;h5;h6])) in H by lia.
  injection H as <- <-. split; [reflexivity|]. subst. reflexivity.
Qed.

Lemma v1_cef_wellformed e hs h x b exts : cef_header e hs h -> blank_only b -> Forall ext_ok exts -> (exts = [] -> b = []) ->
  let t := h ++ x :: b ++ joined (L " ") (map ext_text exts) in
  ~ In NUL t -> no_slash t -> (forall a, t <> a ++ L "=") -> 17 <= List.length t ->
  v1_cef e t = Ok (S (List.length h), cef_value hs (stored_in_order (map ext_member exts))).
Proof.
  intros (G1 & G2 & G3 & ->) HB HF Hb. do 6 (destruct hs as [|? hs]; [discriminate|]). destruct hs; [|discriminate]. clear G1.
  set (E := joined (L " ") (map ext_text exts)) in *. set (H0 := L "CEF:0|" ++ _). intros t HN HNS HNE HL.
  assert (HLE : List.length exts < S (List.length t)).
  { unfold t, E. clear - HF. assert (HK : List.length exts <= List.length (joined (L " ") (map ext_text exts))).
    { induction exts as [|y exts IH]; [cbn; lia|]. apply Forall_inv_tail in HF. specialize (IH HF). destruct (joined_hd y exts) as [w HW]. destruct exts as [|z exts].
      - rewrite HW, !app_length. cbn [L list_ascii_of_string List.length]. lia.
      - cbn [map joined] in *. rewrite !app_length in *. cbn [L list_ascii_of_string List.length] in *. unfold ext_text at 1. rewrite app_length. lia. }
    rewrite !app_length. cbn [List.length]. rewrite app_length. lia. }
  unfold v1_cef. destruct (Nat.ltb_spec (List.length t) 17) as [HH|_]; [lia|]. cbn [negb].
  assert (HT : t = L "CEF:0|" ++ skipn 6 t) by reflexivity.
  replace (rdall t 0 [ceq "C"; ceq "E"; ceq "F"; ceq ":"; ceq "0"; ceq "|"]) with (Ok tt) by (symmetry; apply pfx6; [lia|eexists; exact HT]). cbn [bind].
  assert (HS6 : skipn 6 t = six [l; l0; l1; l2; l3; l4] ++ x :: b ++ E) by reflexivity. rewrite HS6. unfold six. cbn [flat_map]. rewrite app_nil_r, <- !app_assoc.
  assert (HG : forall h r, Forall hc_ok h -> (asserts_on e = true -> h <> []) -> cefGetHdrField e (hdr_text h ++ L "|" ++ r) = Ok (hdr_val h, r)).
  { intros h r K1 K2. apply hdr_field. exists h. auto. }
  assert (HG3 : forall h, In h [l;l0;l1;l2;l3;l4] -> asserts_on e = true -> h <> []). { intros h Hi Ha. specialize (G3 Ha). rewrite Forall_forall in G3. auto. }
  assert (HG2 : forall h, In h [l;l0;l1;l2;l3;l4] -> Forall hc_ok h). { rewrite Forall_forall in G2. exact G2. }
  do 6 (rewrite HG by (first [apply HG2|apply HG3]; cbn; auto 10); cbn [bind]). cbv zeta.
  replace (List.length t - List.length (x :: b ++ E)) with (List.length H0) by (unfold t; rewrite (app_length H0); lia).
  assert (HT2 : t = (H0 ++ [x]) ++ b ++ E) by (unfold t; rewrite <- app_assoc; reflexivity).
  assert (HNe : ~ In NUL E) by (intros Hi; apply HN; rewrite HT2; apply in_or_app; right; apply in_or_app; right; exact Hi).
  assert (HRUN : forall st, v1_cef_ext (S (List.length t)) t (S (List.length H0)) st [] = Ok (if st then fold_left (fun o m => obj_add o (fst m) (snd m)) (map ext_member exts) [] else [])).
  { intros st. rewrite ext_same by assumption. rewrite HT2 at 2. replace (S (List.length H0)) with (List.length (H0 ++ [x])) by (rewrite app_length; cbn; lia).
    apply ext_run; [exact HLE|exact HF|exact HB|exact Hb|exact HNe|]. rewrite app_length. cbn. lia. }
  rewrite !HRUN. cbn [bind]. reflexivity.
Qed.
