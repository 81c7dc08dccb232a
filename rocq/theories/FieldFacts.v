(** * FieldFacts: the simple field parsers meet the grammars of FieldSpec.v. *)
From Verif Require Import Base Time Parsers BaseFacts FieldSpec.
From Coq Require Import ZifyBool ZifyNat ZifyN.

(** ** Classes *)
Lemma mem_In cs c : mem cs c = true <-> In c cs.
Proof.
  unfold mem. rewrite existsb_exists. split.
  - intros [x [Hx Hc]]. apply ceq_true in Hc. congruence.
  - intros H. exists c. split; auto. apply ceq_refl.
Qed.
Lemma mem_notIn cs c : mem cs c = false <-> ~ In c cs.
Proof. rewrite <- mem_In. destruct (mem cs c); split; intros; congruence. Qed.

Ltac sweep := intros c; destruct c as [[] [] [] [] [] [] [] []]; vm_compute; reflexivity.
Lemma isdigit_mem : forall c, isdigit c = mem (L "0123456789") c. Proof. sweep. Qed.
Lemma isxdigit_mem : forall c, isxdigit c = mem (L "0123456789abcdefABCDEF") c. Proof. sweep. Qed.
Lemma isspace_mem : forall c, isspace c = mem [" "%char; "009"%char; "010"%char; "011"%char; "012"%char; "013"%char] c.
Proof. sweep. Qed.
Lemma lower_mem : forall c, in_range 97 122 c = mem (L "abcdefghijklmnopqrstuvwxyz") c. Proof. sweep. Qed.
Lemma upper_mem : forall c, in_range 65 90 c = mem (L "ABCDEFGHIJKLMNOPQRSTUVWXYZ") c. Proof. sweep. Qed.

Lemma isdigit_iff c : isdigit c = true <-> digit c.
Proof. rewrite isdigit_mem. apply mem_In. Qed.
Lemma isdigit_not c : isdigit c = false <-> ~ digit c.
Proof. rewrite isdigit_mem. apply mem_notIn. Qed.
Lemma isxdigit_iff c : isxdigit c = true <-> hexdigit c.
Proof. rewrite isxdigit_mem. apply mem_In. Qed.
Lemma isspace_iff c : isspace c = true <-> space c.
Proof. rewrite isspace_mem. apply mem_In. Qed.
Lemma isalpha_iff c : isalpha c = true <-> alpha c.
Proof. unfold isalpha. rewrite lower_mem, upper_mem, orb_true_iff, !mem_In. reflexivity. Qed.
Lemma isIptName_iff c : isIptName c = true <-> upper c.
Proof. unfold isIptName. rewrite upper_mem. apply mem_In. Qed.
Lemma isalnum_iff c : isalnum c = true <-> alnum c.
Proof. unfold isalnum. rewrite orb_true_iff, isalpha_iff, isdigit_iff. reflexivity. Qed.

Lemma dval_eq c : dval c = digit_value c.
Proof. unfold dval, digit_value, code. unfold nat_of_ascii. lia. Qed.

Lemma hexval_eq : forall c, isxdigit c = true -> hexval c = hexdigit_value c.
Proof. intros c; destruct c as [[] [] [] [] [] [] [] []]; vm_compute; intros H; try discriminate; reflexivity. Qed.

(** ** Splitting *)
Lemma split_at (t : text) n : n <= List.length t ->
  exists pre post, t = pre ++ post /\ List.length pre = n.
Proof. intros H. exists (firstn n t), (skipn n t). rewrite firstn_skipn. split; [reflexivity|]. rewrite firstn_length. lia. Qed.
Lemma firstn_app_exact (pre post : text) : firstn (List.length pre) (pre ++ post) = pre.
Proof. rewrite firstn_app, Nat.sub_diag, firstn_all. cbn. apply app_nil_r. Qed.
Lemma firstn_app_one (a : text) c b : firstn (List.length a + 1) (a ++ c :: b) = a ++ [c].
Proof.
  replace (a ++ c :: b) with ((a ++ [c]) ++ b) by (rewrite <- app_assoc; reflexivity).
  replace (List.length a + 1) with (List.length (a ++ [c])) by (rewrite app_length; reflexivity).
  apply firstn_app_exact.
Qed.
Lemma skipn_app_exact (pre post : text) : skipn (List.length pre) (pre ++ post) = post.
Proof. rewrite skipn_app, Nat.sub_diag, skipn_all. reflexivity. Qed.
Lemma app_len_inj (a b c d : text) : a ++ b = c ++ d -> List.length a = List.length c -> a = c /\ b = d.
Proof.
  revert c; induction a as [|x a IH]; intros [|y c]; cbn; intros H Hl; try discriminate; auto.
  injection H as -> H. destruct (IH c H) as [-> ->]; auto.
Qed.

(** The workhorse: a parser that computes a length and a condition. *)
Lemma takes_text_intro (b : bool) k want t G :
  (b = true -> k <= List.length t) ->
  (forall pre post, t = pre ++ post -> (G pre post <-> b = true /\ List.length pre = k)) ->
  takes_text (if b then ok_text want t k else Bad 0) want t G.
Proof.
  intros Hle HG n v. split.
  - destruct b; [|discriminate]. unfold ok_text, jsub. intros [= <- <-].
    destruct (split_at t k (Hle eq_refl)) as (pre & post & -> & Hk).
    exists pre, post. split; [reflexivity|]. split; [auto|]. split; [apply HG; auto|].
    subst k. rewrite firstn_app_exact. reflexivity.
  - intros (pre & post & -> & -> & Hg & ->). destruct (HG pre post eq_refl) as [HG1 _].
    destruct (HG1 Hg) as [-> <-]. unfold ok_text, jsub. rewrite firstn_app_exact. reflexivity.
Qed.

Lemma takes_text_ext r r' want t G : r = r' -> takes_text r' want t G -> takes_text r want t G.
Proof. intros ->. auto. Qed.

(** nothing is accepted *)
Lemma takes_text_bad want t G k : (forall pre post, t = pre ++ post -> ~ G pre post) ->
  takes_text (Bad k) want t G.
Proof.
  intros H n v. split; [discriminate|]. intros (pre & post & Ht & _ & Hg & _). destruct (H _ _ Ht Hg).
Qed.

(** ** Maximal runs *)
Lemma max_run_scan (P : ascii -> Prop) p (Hp : forall c, p c = true <-> P c) pre post :
  max_run P pre post <-> List.length pre = scan p (pre ++ post).
Proof.
  split.
  - intros [HF Hn]. destruct post as [|c r].
    + rewrite app_nil_r. symmetry. apply scan_all. eapply Forall_impl; [|exact HF]. intros a. apply Hp.
    + symmetry. apply scan_app_stop.
      * eapply Forall_impl; [|exact HF]. intros a. apply Hp.
      * specialize (Hn c r eq_refl). rewrite <- Hp in Hn. destruct (p c); congruence.
  - intros H. pose proof (scan_spec p (pre ++ post)) as [H1 H2].
    rewrite <- H in H1, H2. rewrite firstn_app_exact in H1. rewrite skipn_app_exact in H2.
    split.
    + eapply Forall_impl; [|exact H1]. intros a. apply Hp.
    + intros c r ->. rewrite <- Hp, H2. discriminate.
Qed.

Lemma len_nil (t : text) : Nat.eqb (List.length t) 0 = false <-> t <> [].
Proof. destruct t; cbn; split; intros; congruence. Qed.

Lemma nonspace_iff c : negb (ceq c " ") = true <-> c <> " "%char.
Proof. rewrite negb_true_iff. apply ceq_false. Qed.

Lemma word_exact want t : takes_text (parseWord want t) want t word_g.
Proof.
  unfold parseWord. apply takes_text_intro.
  - intros _. apply scan_le.
  - intros pre post ->. unfold word_g.
    rewrite (max_run_scan _ _ nonspace_iff). rewrite negb_true_iff.
    split; intros [H1 H2]; split; auto.
    + rewrite <- H2. apply len_nil; auto.
    + rewrite <- H2 in H1. apply len_nil; auto.
Qed.

Lemma alpha_exact want t : takes_text (parseAlpha want t) want t alpha_g.
Proof.
  unfold parseAlpha. apply takes_text_intro.
  - intros _. apply scan_le.
  - intros pre post ->. unfold alpha_g.
    rewrite (max_run_scan _ _ isalpha_iff). rewrite negb_true_iff.
    split; intros [H1 H2]; split; auto.
    + rewrite <- H2. apply len_nil; auto.
    + rewrite <- H2 in H1. apply len_nil; auto.
Qed.

Lemma rest_exact want t : takes_text (parseRest want t) want t rest_g.
Proof.
  unfold parseRest. apply (takes_text_intro true); auto.
  intros pre post ->. unfold rest_g. rewrite app_length. split.
  - intros ->. cbn. split; auto.
  - intros [_ H]. destruct post; auto. cbn in H. lia.
Qed.

Lemma whitespace_exact want t : takes_text (parseWhitespace want t) want t whitespace_g.
Proof.
  unfold parseWhitespace. destruct t as [|c t].
  - cbn. apply takes_text_bad. intros pre post H. destruct pre; [|discriminate]. intros [Hn _]. congruence.
  - eapply takes_text_ext with
      (r' := if negb (Nat.eqb (scan isspace (c :: t)) 0) then ok_text want (c :: t) (scan isspace (c :: t)) else Bad 0).
    + cbn. destruct (isspace c); reflexivity.
    + apply takes_text_intro.
      * intros _. apply scan_le.
      * intros pre post ->. unfold whitespace_g. rewrite (max_run_scan _ _ isspace_iff), negb_true_iff.
        split; intros [H1 H2]; split; auto.
        -- rewrite <- H2. apply len_nil; auto.
        -- rewrite <- H2 in H1. apply len_nil; auto.
Qed.

Lemma notmem_iff cs c : negb (mem cs c) = true <-> ~ In c cs.
Proof. rewrite negb_true_iff. apply mem_notIn. Qed.

Lemma char_sep_exact term want t : takes_text (parseCharSeparated term want t) want t (char_sep_g term).
Proof.
  unfold parseCharSeparated. apply (takes_text_intro true).
  - intros _. apply scan_le.
  - intros pre post ->. unfold char_sep_g. rewrite (max_run_scan _ _ (notmem_iff term)). tauto.
Qed.

Lemma char_to_exact term want t : takes_text (parseCharTo term want t) want t (char_to_g term).
Proof.
  unfold parseCharTo. set (k := scan _ t).
  eapply takes_text_ext with
    (r' := if (negb (Nat.eqb k 0) && negb (Nat.eqb k (List.length t)))%bool then ok_text want t k else Bad 0).
  { destruct (Nat.eqb k 0); cbn; auto. }
  apply takes_text_intro.
  - intros _. apply scan_le.
  - intros pre post Ht. unfold char_to_g.
    assert (HM : (max_run (fun c => ~ In c term) pre post) <-> List.length pre = k).
    { subst k. rewrite Ht. apply max_run_scan. apply notmem_iff. }
    rewrite andb_true_iff, !negb_true_iff. split.
    + intros (Hn & HF & c & r & -> & Hc).
      assert (List.length pre = k).
      { apply HM. split; auto. intros c0 r0 [= -> ->]. tauto. }
      split; auto. split.
      * rewrite <- H. apply len_nil; auto.
      * apply Nat.eqb_neq. rewrite Ht, app_length. cbn. lia.
    + intros [[H1 H2] H3]. destruct (proj2 HM H3) as [HF Hst].
      split; [apply len_nil; congruence|]. split; auto.
      destruct post as [|c r].
      * apply Nat.eqb_neq in H2. rewrite Ht, app_nil_r in H2. congruence.
      * exists c, r. split; auto. specialize (Hst c r eq_refl).
        rewrite <- mem_In. rewrite <- mem_In in Hst. destruct (mem term c); intuition congruence.
Qed.

(** ** literal *)
Lemma literal_loop_spec lit : forall t j, ~ In NUL t -> j <= List.length lit ->
  exists k, literal_loop lit t j = Ok (j + k) /\ k <= List.length t /\ j + k <= List.length lit /\
    firstn k t = firstn k (skipn j lit) /\
    (k < List.length t -> j + k < List.length lit -> nth_error lit (j + k) <> nth_error t k).
Proof.
  induction t as [|c t IH]; intros j Hn Hj; cbn [literal_loop].
  - exists 0. rewrite Nat.add_0_r. cbn. repeat split; auto; lia.
  - unfold rdlit. destruct (nth_error lit j) as [l|] eqn:E.
    + cbn [bind]. destruct (ceq l c) eqn:Ec.
      * apply ceq_true in Ec. subst l.
        assert (Hlt : j < List.length lit) by (apply nth_error_Some; congruence).
        destruct (IH (S j)) as (k & Hk & H1 & H2 & H3 & H4); [cbn in Hn; tauto|lia|].
        exists (S k). rewrite Hk. split; [f_equal; lia|]. cbn [List.length].
        split; [lia|]. split; [lia|]. split.
        -- cbn. rewrite nth_error_skipn_hd in E. destruct (skipn j lit) as [|x r] eqn:Es; [discriminate|].
           injection E as ->. rewrite (skipn_S_tl _ _ _ _ Es) in H3. congruence.
        -- intros Ha Hb. replace (j + S k) with (S j + k) by lia. cbn. apply H4; lia.
      * exists 0. rewrite Nat.add_0_r. split; [reflexivity|]. cbn. repeat split; auto; try lia.
        intros _ _. rewrite E. intros [= ->]. rewrite ceq_refl in Ec. discriminate.
    + apply nth_error_None in E. assert (j = List.length lit) by lia. subst j. rewrite Nat.eqb_refl. cbn [bind].
      destruct (ceq NUL c) eqn:Ec.
      * apply ceq_true in Ec. cbn in Hn. exfalso. apply Hn. left. auto.
      * exists 0. rewrite Nat.add_0_r. cbn. repeat split; auto; lia.
Qed.

Lemma rdlit_in lit j : j <= List.length lit -> ~ In NUL lit ->
  exists l, rdlit lit j = Ok l /\ (ceq l NUL = true <-> j = List.length lit).
Proof.
  intros Hj Hn. unfold rdlit. destruct (nth_error lit j) as [l|] eqn:E.
  - exists l. split; auto. rewrite ceq_true. split.
    + intros ->. apply nth_error_In in E. contradiction.
    + intros ->. assert (List.length lit < List.length lit) by (apply nth_error_Some; congruence). lia.
  - apply nth_error_None in E. assert (j = List.length lit) by lia. subst. rewrite Nat.eqb_refl.
    exists NUL. rewrite ceq_refl. tauto.
Qed.

(** A literal without NUL against a message without NUL. *)
Lemma literal_exact lit want t : ~ In NUL lit -> ~ In NUL t ->
  takes_text (parseLiteral lit want t) want t (literal_g lit).
Proof.
  intros Hl Ht n v. unfold parseLiteral.
  destruct (literal_loop_spec lit t 0 Ht (Nat.le_0_l _)) as (k & Hk & H1 & H2 & H3 & H4).
  cbn [Nat.add skipn] in *. rewrite Hk. cbn [bind].
  destruct (rdlit_in lit k H2 Hl) as (l & -> & Hl2). cbn [bind]. unfold literal_g. split.
  - destruct (ceq l NUL) eqn:E; [|discriminate]. destruct Hl2 as [Hl2 _]. specialize (Hl2 eq_refl). subst k.
    unfold ok_text, jsub. intros [= <- <-]. exists (firstn (List.length lit) t), (skipn (List.length lit) t).
    rewrite firstn_skipn, firstn_length. rewrite H3, firstn_all. repeat split; auto. lia.
  - intros (pre & post & -> & -> & -> & ->).
    assert (k = List.length lit).
    { destruct (Nat.eq_dec k (List.length lit)) as [|Hne]; auto. exfalso.
      assert (k < List.length lit) by lia. apply H4; auto.
      - rewrite app_length. lia.
      - rewrite nth_error_app1 by lia. reflexivity. }
    subst k. destruct Hl2 as [_ ->]; auto. unfold ok_text, jsub. rewrite firstn_app_exact. reflexivity.
Qed.

(** ** quoted-string *)
Lemma notquote_iff c : negb (ceq c """") = true <-> c <> """"%char.
Proof. rewrite negb_true_iff. apply ceq_false. Qed.

Lemma rd_app1 (a : text) c b k : k = List.length a -> rd (a ++ c :: b) k = Ok c.
Proof. intros ->. unfold rd. rewrite nth_error_app2, Nat.sub_diag by lia. reflexivity. Qed.

Lemma quoted_exact want t : takes_text (parseQuotedString want t) want t quoted_g.
Proof.
  intros n v. unfold parseQuotedString, quoted_g. split.
  - destruct (Nat.ltb_spec (List.length t) 2) as [Hlt|Hge]; [discriminate|]. cbn [negb].
    destruct t as [|c t]; [discriminate|]. cbn [rd nth_error bind].
    destruct (ceq c """") eqn:Ec; [|discriminate]. apply ceq_true in Ec. subst c. cbn [skipn].
    set (k := scan _ t). cbn [List.length] in *.
    destruct (Nat.eqb_spec (1 + k) (S (List.length t))) as [Heq|Hne]; [discriminate|]. cbn [negb].
    assert (Hk : k < List.length t) by (pose proof (scan_le (fun c => negb (ceq c """")) t); lia).
    unfold rd. cbn [nth_error Nat.add]. destruct (nth_error t k) as [q|] eqn:E.
    2: { apply nth_error_None in E. lia. }
    cbn [bind]. destruct (ceq q """") eqn:Eq; [|discriminate]. apply ceq_true in Eq. subst q.
    unfold ok_text, jsub. intros [= <- <-].
    apply nth_error_split in E as (a & b & -> & Hka).
    exists (L """" ++ a ++ L """"), b. split; [cbn; rewrite <- app_assoc; reflexivity|].
    split; [cbn; rewrite app_length; cbn; lia|]. split.
    + exists a. split; auto. intros Hin.
      pose proof (scan_spec (fun c => negb (ceq c """")) (a ++ """"%char :: b)) as [HF _].
      fold k in HF. rewrite <- Hka, firstn_app_exact in HF. rewrite Forall_forall in HF.
      specialize (HF _ Hin). cbn in HF. discriminate.
    + rewrite <- Hka. destruct want; auto. f_equal.
      cbn. rewrite firstn_app_one. reflexivity.
  - intros (pre & post & -> & -> & (inner & -> & Hin) & ->).
    assert (Hs : scan (fun c => negb (ceq c """")) (inner ++ """"%char :: post) = List.length inner).
    { apply scan_app_stop; [|reflexivity]. apply Forall_forall. intros x Hx. apply notquote_iff. intros ->. auto. }
    assert (Hr : rd (""""%char :: inner ++ """"%char :: post) (S (List.length inner)) = Ok """"%char)
      by (apply (rd_app1 (""""%char :: inner) """"%char post); reflexivity).
    replace ((L """" ++ inner ++ L """") ++ post) with (""""%char :: inner ++ """"%char :: post)
      by (cbn; rewrite <- app_assoc; reflexivity).
    assert (Hl : List.length (""""%char :: inner ++ """"%char :: post) = S (S (List.length inner + List.length post)))
      by (cbn; rewrite app_length; cbn; lia).
    rewrite Hl. change (rd (""""%char :: inner ++ """"%char :: post) 0) with (Ok """"%char).
    cbn [Nat.ltb Nat.leb negb bind skipn]. rewrite ceq_refl, Hs. cbn [Nat.add].
    destruct (Nat.eqb_spec (S (List.length inner)) (S (S (List.length inner + List.length post)))) as [|_]; [lia|].
    cbn [negb]. rewrite Hr. cbn [bind]. rewrite ceq_refl. unfold ok_text, jsub.
    replace (List.length (L """" ++ inner ++ L """")) with (S (List.length inner + 1))
      by (cbn; rewrite app_length; reflexivity).
    cbn [Nat.add firstn]. rewrite firstn_app_one. destruct want; reflexivity.
Qed.
