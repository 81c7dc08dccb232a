(** * FieldFacts6: op-quoted-string, v2-iptables, json, cee-syslog. *)
From Verif Require Import Base Time Parsers BaseFacts FieldSpec FieldSpec2 SafetySpec FieldFacts FieldFacts2 FieldFacts3 FieldFacts4 DateFacts.
From Coq Require Import ZifyBool ZifyNat ZifyN.

(** ** Runs *)
Lemma run_split (P : ascii -> bool) t : exists a b, t = a ++ b /\ Forall (fun c => P c = true) a /\
  (forall c r, b = c :: r -> P c = false) /\ scan P t = List.length a.
Proof.
  exists (firstn (scan P t) t), (skipn (scan P t) t). split; [symmetry; apply firstn_skipn|].
  pose proof (scan_spec P t) as [H1 H2]. split; [exact H1|]. split.
  - intros c r E. rewrite E in H2. exact H2.
  - rewrite firstn_length. pose proof (scan_le P t). lia.
Qed.
Lemma scan_run (P : ascii -> bool) a b : Forall (fun c => P c = true) a -> (forall c r, b = c :: r -> P c = false) ->
  scan P (a ++ b) = List.length a.
Proof.
  intros HA HB. destruct b as [|c r]; [rewrite app_nil_r; apply scan_all; exact HA|]. apply scan_app_stop; [exact HA|]. eapply HB. reflexivity.
Qed.

(** ** op-quoted-string *)
Lemma op_quoted_exact t n v : parseOpQuotedString true t = Ok (n, v) <->
  exists pre post value, t = pre ++ post /\ n = List.length pre /\ op_quoted_g value pre post /\ v = JStr (cstr value).
Proof.
  unfold parseOpQuotedString, store_op, op_quoted_g. split.
  - intros H. apply bind_ok in H. destruct H as (c & Hc & H). destruct (ceq c """") eqn:E; cbn [negb] in H.
    + apply ceq_true in E. subst c. destruct t as [|c t]; [discriminate|]. cbn in Hc. injection Hc as ->. cbn [skipn] in H.
      destruct (run_split (fun c => negb (ceq c """")) t) as (a & b & -> & Ha & Hb & Hs). rewrite Hs in H.
      destruct (Nat.eqb_spec (1 + List.length a) (List.length (""""%char :: a ++ b))) as [Heq|Hne]; [discriminate|]. cbn [negb] in H.
      destruct b as [|q b]; [cbn [List.length] in Hne; rewrite app_length in Hne; cbn in Hne; lia|].
      rewrite (rd_app1 (""""%char :: a) q b) in H by reflexivity. cbn [bind] in H.
      specialize (Hb q b eq_refl). rewrite negb_false_iff in Hb. rewrite Hb in H. apply ceq_true in Hb. subst q.
      replace (1 + List.length a - 1) with (List.length a) in H by lia. rewrite firstn_app_exact in H.
      exists (L """" ++ a ++ L """"), b, a. split; [sfx|]. split; [cbn [L list_ascii_of_string app List.length]; rewrite app_length; cbn [List.length]; cbn in H; injection H as <- _; lia|].
      split; [|congruence]. left. split; [reflexivity|]. intros Hin. rewrite Forall_forall in Ha. specialize (Ha _ Hin). discriminate.
    + destruct (run_split (fun c => negb (ceq c " ")) t) as (a & b & -> & Ha & Hb & Hs). rewrite Hs in H.
      destruct (Nat.eqb_spec (List.length a) 0) as [|Hne]; [discriminate|]. cbn [negb] in H. rewrite firstn_app_exact in H.
      exists a, b, a. split; [reflexivity|]. split; [congruence|]. split; [|congruence]. right. split; [reflexivity|].
      assert (Hn : a <> []) by (destruct a; [cbn in Hne; lia|discriminate]).
      split; [split; [exact Hn|split]|].
      * eapply Forall_impl; [|exact Ha]. intros x Hx. apply nonspace_iff. exact Hx.
      * intros x r Hx Hd. apply (Hd). specialize (Hb x r Hx). apply negb_false_iff, ceq_true in Hb. exact Hb.
      * intros x r ->. cbn in Hc. injection Hc as ->. apply ceq_false. exact E.
  - intros (pre & post & value & -> & -> & [[-> Hq]|(-> & (Hne & HF & HS) & Hq)] & ->).
    + assert (HT : (L """" ++ value ++ L """") ++ post = """"%char :: value ++ """"%char :: post) by sfx. rewrite HT.
      change (rd (""""%char :: value ++ """"%char :: post) 0) with (Ok """"%char). cbn [bind]. rewrite ceq_refl. cbn [negb skipn].
      assert (Hs : scan (fun c => negb (ceq c """")) (value ++ """"%char :: post) = List.length value).
      { apply scan_app_stop; [|reflexivity]. apply Forall_forall. intros x Hx. apply notquote_iff. intros ->. auto. }
      rewrite Hs. cbn [List.length]. rewrite app_length. cbn [List.length].
      destruct (Nat.eqb_spec (1 + List.length value) (S (List.length value + S (List.length post)))); [lia|]. cbn [negb].
      rewrite (rd_app1 (""""%char :: value) """"%char post) by reflexivity. cbn [bind]. rewrite ceq_refl.
      replace (1 + List.length value - 1) with (List.length value) by lia. rewrite firstn_app_exact.
      f_equal. f_equal. cbn [L list_ascii_of_string app List.length]. rewrite app_length. cbn [List.length]. lia.
    + destruct pre as [|c r]; [congruence|]. change (rd ((c :: r) ++ post) 0) with (Ok c). cbn [bind].
      specialize (Hq c r eq_refl). apply ceq_false in Hq. rewrite Hq. cbn [negb].
      rewrite (scan_run (fun c => negb (ceq c " ")) (c :: r) post).
      * cbn [List.length Nat.eqb negb]. change (S (List.length r)) with (List.length (c :: r)). rewrite firstn_app_exact. reflexivity.
      * eapply Forall_impl; [|exact HF]. intros x Hx. apply nonspace_iff. exact Hx.
      * intros x q Hx. apply negb_false_iff, ceq_true. destruct (Ascii.ascii_dec x " "%char) as [|Hd]; [assumption|]. exfalso. apply (HS x q Hx). exact Hd.
Qed.

(** ** v2-iptables *)
Definition nonsp (c : ascii) : bool := negb (isspace c).
Lemma nonsp_iff c : nonsp c = true <-> ~ space c.
Proof. unfold nonsp. rewrite negb_true_iff, <- not_true_iff_false, isspace_iff. reflexivity. Qed.

(** one field in front of [post] *)
Definition ipt_ends (f : ipt_field) (post : text) : Prop :=
  match snd f with
  | None => post = [] \/ exists r, post = L " " ++ r
  | Some _ => forall c r, post = c :: r -> space c
  end.
Lemma iptNV_spec u k name v : parseIptNV u = Ok (k, name, v) <->
  exists f post, u = ipt_text f ++ post /\ ipt_ok f /\ ipt_ends f post /\ k = List.length (ipt_text f) /\ (name, v) = ipt_member f.
Proof.
  unfold parseIptNV. destruct (run_split isIptName u) as (a & b & -> & Ha & Hb & Hs). rewrite Hs. rewrite firstn_app_exact.
  assert (HU : Forall upper a) by (eapply Forall_impl; [|exact Ha]; intros x Hx; apply isIptName_iff; exact Hx).
  split.
  - destruct (Nat.eqb_spec (List.length a) 0) as [|Hne]; [discriminate|]. cbn [negb].
    assert (Hn : a <> []) by (destruct a; [cbn in Hne; lia|discriminate]).
    destruct b as [|c b].
    + rewrite app_nil_r. destruct (Nat.ltb_spec (List.length a) (List.length a)) as [HH|HH]; [lia|]. intros H.
      exists (a, None), []. unfold ipt_text, ipt_member, ipt_ok, ipt_ends; cbn [fst snd]. rewrite !app_nil_r.
      split; [reflexivity|]. split; [auto|]. split; [left; reflexivity|]. split; congruence.
    + rewrite app_length. cbn [List.length]. destruct (Nat.ltb_spec (List.length a) (List.length a + S (List.length b))); [|lia].
      rewrite rd_app1 by reflexivity. cbn [bind]. destruct (ceq c "=" || ceq c " ")%bool eqn:E; [|discriminate].
      destruct (ceq c " ") eqn:E2; cbn [negb].
      * apply ceq_true in E2. subst c. intros H1. exists (a, None), (" "%char :: b). unfold ipt_text, ipt_member, ipt_ok, ipt_ends; cbn [fst snd].
        rewrite app_nil_r. split; [reflexivity|]. split; [auto|]. split; [right; exists b; reflexivity|]. split; congruence.
      * rewrite orb_false_r in E. apply ceq_true in E. subst c.
        replace (skipn (S (List.length a)) (a ++ "="%char :: b)) with b
          by (replace (a ++ "="%char :: b) with ((a ++ ["="%char]) ++ b) by (rewrite <- app_assoc; reflexivity);
              replace (S (List.length a)) with (List.length (a ++ ["="%char])) by (rewrite app_length; cbn; lia); rewrite skipn_app_exact; reflexivity).
        destruct (run_split nonsp b) as (x & y & -> & Hx & Hy & Hsx).
        change (fun c : ascii => negb (isspace c)) with nonsp. rewrite Hsx.
        assert (Hsub : sub (a ++ "="%char :: x ++ y) (S (List.length a)) (List.length x) = x).
        { unfold sub. replace (a ++ "="%char :: x ++ y) with ((a ++ ["="%char]) ++ x ++ y) by (rewrite <- app_assoc; reflexivity).
          replace (S (List.length a)) with (List.length (a ++ ["="%char])) by (rewrite app_length; cbn; lia). rewrite skipn_app_exact, firstn_app_exact. reflexivity. }
        rewrite Hsub. intros H1. exists (a, Some x), y. unfold ipt_text, ipt_member, ipt_ok, ipt_ends; cbn [fst snd].
        split; [sfx|]. split; [split; [exact Hn|split; [exact HU|eapply Forall_impl; [|exact Hx]; intros z Hz; apply nonsp_iff; exact Hz]]|].
        split; [intros z r Hz; specialize (Hy z r Hz); apply isspace_iff; unfold nonsp in Hy; apply negb_false_iff in Hy; exact Hy|].
        split; [|congruence]. injection H1 as <- _ _. rewrite app_length. cbn [L list_ascii_of_string app List.length]. lia.
  - intros ([nm val] & post & Hu & (Hn & HU2 & HV) & HE & -> & HM). unfold ipt_text, ipt_member, ipt_ends in *. cbn [fst snd] in *.
    assert (Hab : a = nm /\ b = (match val with None => [] | Some v => L "=" ++ v end) ++ post).
    { assert (HL : List.length a = List.length nm).
      { rewrite <- Hs, Hu, <- app_assoc. apply scan_run.
        - eapply Forall_impl; [|exact HU2]. intros x Hx. apply isIptName_iff. exact Hx.
        - intros c r. destruct val as [vl|]; [intros HH; injection HH as <- _; reflexivity|]. cbn [app].
          destruct HE as [->|[q ->]]; [discriminate|]. intros HH. injection HH as <- _. reflexivity. }
      rewrite <- app_assoc in Hu. apply app_len_inj in Hu; [exact Hu|exact HL]. }
    destruct Hab as [-> ->]. clear Hu Hs.
    destruct (Nat.eqb_spec (List.length nm) 0) as [H0|_]; [destruct nm; [congruence|discriminate]|]. cbn [negb].
    injection HM as <- ->. destruct val as [vl|].
    + cbn [L list_ascii_of_string app]. rewrite app_length. cbn [List.length]. destruct (Nat.ltb_spec (List.length name) (List.length name + S (List.length (vl ++ post)))); [|lia].
      rewrite rd_app1 by reflexivity. cbn [bind]. rewrite ceq_refl. cbn [orb ceq Ascii.eqb Bool.eqb negb].
      replace (skipn (S (List.length name)) (name ++ "="%char :: vl ++ post)) with (vl ++ post)
          by (replace (name ++ "="%char :: vl ++ post) with ((name ++ ["="%char]) ++ vl ++ post) by (rewrite <- app_assoc; reflexivity);
              replace (S (List.length name)) with (List.length (name ++ ["="%char])) by (rewrite app_length; cbn; lia); rewrite skipn_app_exact; reflexivity).
      change (fun c : ascii => negb (isspace c)) with nonsp.
      rewrite (scan_run nonsp vl post); [| |].
      * unfold sub. replace (name ++ "="%char :: vl ++ post) with ((name ++ ["="%char]) ++ vl ++ post) by (rewrite <- app_assoc; reflexivity).
        replace (S (List.length name)) with (List.length (name ++ ["="%char])) at 2 by (rewrite app_length; cbn; lia). rewrite skipn_app_exact, firstn_app_exact.
        f_equal. f_equal. f_equal. rewrite app_length. cbn [List.length]. lia.
      * eapply Forall_impl; [|exact HV]. intros z Hz. apply nonsp_iff. exact Hz.
      * intros z r Hz. unfold nonsp. apply negb_false_iff, isspace_iff. eapply HE. exact Hz.
    + cbn [app]. destruct HE as [->|[r ->]].
      * rewrite !app_nil_r. destruct (Nat.ltb_spec (List.length name) (List.length name)); [lia|]. reflexivity.
      * cbn [L list_ascii_of_string app]. rewrite app_nil_r, app_length. cbn [List.length]. destruct (Nat.ltb_spec (List.length name) (List.length name + S (List.length r))); [|lia].
        rewrite rd_app1 by reflexivity. reflexivity.
Qed.

Lemma upper_not_space c : upper c -> ~ space c.
Proof.
  intros H. apply nonsp_iff. apply isIptName_iff in H. revert c H.
  assert (G : forall c, implb (isIptName c) (nonsp c) = true) by sweep. intros c H. specialize (G c). rewrite H in G. exact G.
Qed.
Lemma ipt_text_hd f : ipt_ok f -> exists c r, ipt_text f = c :: r /\ upper c.
Proof.
  destruct f as [nm v]. intros (Hn & HU & _). cbn [fst snd] in *. destruct nm as [|c r]; [congruence|]. inversion HU; subst.
  exists c. eexists. split; [reflexivity|assumption].
Qed.
Definition ipt_shape (fs : list ipt_field) (u : text) : Prop :=
  Forall ipt_ok fs /\ (u = joined (L " ") (map ipt_text fs) \/ (fs <> [] /\ u = joined (L " ") (map ipt_text fs) ++ L " ")).
Lemma joined_cons sep x y r : joined sep (x :: y :: r) = x ++ sep ++ joined sep (y :: r).
Proof. reflexivity. Qed.
Lemma shape_hd fs u : ipt_shape fs u -> fs <> [] -> exists c r, u = c :: r /\ upper c.
Proof.
  intros [HF HU] Hne. destruct fs as [|f fs]; [congruence|]. inversion HF as [|? ? Hf _]; subst.
  destruct (ipt_text_hd f Hf) as (c & r & E & Hc). cbn [map] in HU.
  assert (HJ : exists q, joined (L " ") (ipt_text f :: map ipt_text fs) = c :: q).
  { destruct fs; cbn [map joined]; rewrite E; cbn [app]; eauto. }
  destruct HJ as [q HJ]. rewrite HJ in HU. destruct HU as [->|[_ ->]]; cbn [app]; eauto.
Qed.
Lemma shape_nil u : ipt_shape [] u <-> u = [].
Proof.
  unfold ipt_shape. cbn [map joined]. split.
  - intros [_ [H|[H _]]]; [exact H|congruence].
  - intros ->. split; [constructor|left; reflexivity].
Qed.
(** the shape, one field at a time *)
Lemma shape_cons f fs u : ipt_shape (f :: fs) u <->
  ipt_ok f /\ ((fs = [] /\ u = ipt_text f) \/ exists rest, u = ipt_text f ++ L " " ++ rest /\ ipt_shape fs rest).
Proof.
  unfold ipt_shape. destruct fs as [|g fs].
  - cbn [map joined]. split.
    + intros [HF HU]. split; [apply Forall_inv in HF; exact HF|]. destruct HU as [->|[_ ->]]; [left; auto|].
      right. exists []. split; [reflexivity|]. split; [constructor|left; reflexivity].
    + intros [Hf [[_ ->]|(rest & -> & [_ [->|[H _]]])]]; [| |congruence]; (split; [constructor; [exact Hf|constructor]|]).
      * left. reflexivity.
      * right. split; [discriminate|reflexivity].
  - cbn [map]. rewrite joined_cons. split.
    + intros [HF HU]. split; [apply Forall_inv in HF; exact HF|]. right. apply Forall_inv_tail in HF.
      destruct HU as [->|[_ ->]].
      * eexists. split; [reflexivity|]. split; [exact HF|]. left. reflexivity.
      * eexists. split; [rewrite <- !app_assoc; reflexivity|]. split; [exact HF|]. right. split; [discriminate|reflexivity].
    + intros [Hf [[H _]|(rest & -> & [HF HU])]]; [discriminate|]. split; [constructor; assumption|].
      destruct HU as [->|[_ ->]]; [left; reflexivity|]. right. split; [discriminate|]. rewrite <- !app_assoc. reflexivity.
Qed.

Lemma ipt_sp1 (rest : text) : match L " " ++ rest with c :: _ => if ceq c " " then 1 else 0 | [] => 0 end = 1.
Proof. reflexivity. Qed.
Lemma ipt_sp0 (post : text) : (forall r, post <> L " " ++ r) -> match post with c :: _ => if ceq c " " then 1 else 0 | [] => 0 end = 0.
Proof. destruct post as [|c r]; [reflexivity|]. intros H. destruct (ceq c " ") eqn:E; [|reflexivity]. apply ceq_true in E. subst c. exfalso. apply (H r). reflexivity. Qed.
Lemma ends_sp f rest : ipt_ends f (L " " ++ rest).
Proof. destruct f as [nm [v|]]; cbn [ipt_ends snd]; [|right; eauto]. intros c r H. injection H as <- _. left. reflexivity. Qed.
Lemma ends_nil f : ipt_ends f [].
Proof. destruct f as [nm [v|]]; cbn [ipt_ends snd]; [discriminate|left; reflexivity]. Qed.

Lemma stage1_spec : forall fuel u, List.length u < fuel -> forall k nf,
  ipt_stage1 fuel u = Ok (k, nf) <-> exists fs, ipt_shape fs u /\ nf = List.length fs /\ k = List.length u.
Proof.
  induction fuel as [|fuel IH]; intros u Hl k nf; [lia|]. cbn [ipt_stage1]. destruct u as [|x u'] eqn:EU.
  { split.
    - intros [= <- <-]. exists []. split; [apply shape_nil; reflexivity|auto].
    - intros ([|f fs] & HS & -> & ->); [reflexivity|]. exfalso. destruct (shape_hd _ _ HS) as (c & r & H & _); discriminate. }
  rewrite <- EU in *. assert (Hne : u <> []) by (rewrite EU; discriminate). clear EU x u'. split.
  - intros H. apply bind_ok in H. destruct H as ([[k1 name] v] & H1 & H). cbv beta iota zeta in H.
    apply bind_ok in H. destruct H as ([k2 nf2] & H2 & H). cbv beta iota zeta in H.
    apply iptNV_spec in H1. destruct H1 as (f & post & Hu & Hf & HE & -> & _).
    destruct (ipt_text_hd f Hf) as (c & r & Et & Hc).
    rewrite Hu in H2. rewrite skipn_app_exact in H2.
    assert (Hpl : List.length post < List.length u) by (rewrite Hu, app_length, Et; cbn; lia).
    destruct post as [|y post].
    + cbn [skipn] in H2. apply IH in H2; [|cbn; lia]. destruct H2 as (fs & HS & -> & ->).
      assert (fs = []) as -> by (destruct fs as [|g fs]; [reflexivity|]; destruct (shape_hd _ _ HS) as (? & ? & HH & _); discriminate).
      exists [f]. injection H as <- <-. rewrite app_nil_r in Hu. split; [apply shape_cons; split; [exact Hf|left; auto]|].
      split; [reflexivity|]. rewrite Hu, skipn_all. cbn [List.length]. lia.
    + destruct (ceq y " ") eqn:EY.
      * apply ceq_true in EY. subst y. cbn [skipn] in H2. apply IH in H2; [|cbn in Hpl; lia]. destruct H2 as (fs & HS & -> & ->).
        exists (f :: fs). split; [apply shape_cons; split; [exact Hf|right; exists post; auto]|].
        rewrite Hu in H. rewrite skipn_app_exact, ceq_refl in H. injection H as <- <-. split; [reflexivity|]. rewrite Hu, app_length. cbn [List.length]. lia.
      * cbn [skipn] in H2. apply IH in H2; [|lia]. destruct H2 as (fs & HS & -> & ->). exfalso.
        assert (Hsp : space y).
        { destruct f as [nm [vl|]]; cbn [ipt_ends snd] in HE; [eapply HE; reflexivity|].
          destruct HE as [HE|[q HE]]; [discriminate|]. injection HE as -> _. left. reflexivity. }
        destruct fs as [|g fs]; [apply shape_nil in HS; discriminate|].
        destruct (shape_hd _ _ HS) as (z & q & HH & Hz); [discriminate|]. injection HH as <- _. apply (upper_not_space y Hz Hsp).
  - intros (fs & HS & -> & ->). destruct fs as [|f fs]; [apply shape_nil in HS; congruence|]. apply shape_cons in HS.
    destruct HS as [Hf HS]. destruct (ipt_text_hd f Hf) as (c & r & Et & Hc).
    destruct HS as [[-> Hu]|(rest & Hu & HS)].
    + assert (HN : parseIptNV u = Ok (List.length (ipt_text f), fst (ipt_member f), snd (ipt_member f))).
      { apply iptNV_spec. exists f, []. rewrite app_nil_r. split; [exact Hu|]. split; [exact Hf|]. split; [apply ends_nil|]. split; [reflexivity|]. destruct f; reflexivity. }
      rewrite HN. cbn [bind]. rewrite Hu, skipn_all. cbn [skipn].
      rewrite (proj2 (IH [] ltac:(cbn; rewrite Hu, Et in Hl; cbn in Hl; lia) 0 0)) by (exists []; split; [apply shape_nil; reflexivity|auto]).
      cbn [bind]. f_equal. f_equal. lia.
    + assert (HN : parseIptNV u = Ok (List.length (ipt_text f), fst (ipt_member f), snd (ipt_member f))).
      { apply iptNV_spec. exists f, (L " " ++ rest). split; [exact Hu|]. split; [exact Hf|]. split; [apply ends_sp|]. split; [reflexivity|]. destruct f; reflexivity. }
      rewrite HN. cbn [bind]. rewrite Hu, skipn_app_exact. cbn [L list_ascii_of_string app skipn]. rewrite ceq_refl. cbn [skipn].
      rewrite (proj2 (IH rest ltac:(rewrite Hu, Et in Hl; cbn [app List.length] in Hl; rewrite !app_length in Hl; cbn [L list_ascii_of_string List.length] in Hl; lia) (List.length rest) (List.length fs))) by eauto.
      cbn [bind List.length]. f_equal. f_equal. rewrite app_length. cbn [List.length]. lia.
Qed.

Lemma upper_nonul : forall c, implb (isIptName c) (negb (ceq c NUL)) = true. Proof. sweep. Qed.
Lemma upper_no_nul nm : Forall upper nm -> cstr nm = nm.
Proof.
  induction 1 as [|c r Hc _ IH]; [reflexivity|]. cbn [cstr].
  pose proof (upper_nonul c) as G.
  apply isIptName_iff in Hc. rewrite Hc in G. cbn [implb] in G. apply negb_true_iff in G. rewrite G, IH. reflexivity.
Qed.
Lemma stage2_spec : forall fuel u fs o, List.length u < fuel -> ipt_shape fs u ->
  ipt_stage2 fuel u o = Ok (fold_left (fun o m => obj_add o (fst m) (snd m)) (map ipt_member fs) o).
Proof.
  induction fuel as [|fuel IH]; intros u fs o Hl HS; [lia|]. cbn [ipt_stage2]. destruct u as [|x u'] eqn:EU.
  { destruct fs as [|f fs]; [reflexivity|]. exfalso. destruct (shape_hd _ _ HS) as (c & r & H & _); discriminate. }
  rewrite <- EU in *. assert (Hne : u <> []) by (rewrite EU; discriminate). clear EU x u'.
  destruct fs as [|f fs]; [apply shape_nil in HS; congruence|]. apply shape_cons in HS.
  destruct HS as [Hf HS]. destruct (ipt_text_hd f Hf) as (c & r & Et & Hc).
  assert (Hcs : cstr (fst (ipt_member f)) = fst (ipt_member f)) by (destruct f as [nm v]; destruct Hf as (_ & HU & _); apply upper_no_nul; exact HU).
  destruct HS as [[-> Hu]|(rest & Hu & HS)].
  - assert (HN : parseIptNV u = Ok (List.length (ipt_text f), fst (ipt_member f), snd (ipt_member f))).
    { apply iptNV_spec. exists f, []. rewrite app_nil_r. split; [exact Hu|]. split; [exact Hf|]. split; [apply ends_nil|]. split; [reflexivity|]. destruct f; reflexivity. }
    rewrite HN. cbn [bind]. rewrite Hu, skipn_all. cbn [scan skipn]. rewrite Hcs. rewrite (IH [] []).
    + reflexivity.
    + cbn. rewrite Hu, Et in Hl. cbn in Hl. lia.
    + apply shape_nil. reflexivity.
  - assert (HN : parseIptNV u = Ok (List.length (ipt_text f), fst (ipt_member f), snd (ipt_member f))).
    { apply iptNV_spec. exists f, (L " " ++ rest). split; [exact Hu|]. split; [exact Hf|]. split; [apply ends_sp|]. split; [reflexivity|]. destruct f; reflexivity. }
    rewrite HN. cbn [bind]. rewrite Hu, skipn_app_exact.
    assert (Hsc : scan isspace (L " " ++ rest) = 1).
    { cbn [L list_ascii_of_string app scan]. change (isspace " "%char) with true. cbv iota. f_equal. destruct fs as [|g fs]; [apply shape_nil in HS; subst; reflexivity|].
      destruct (shape_hd _ _ HS) as (z & q & -> & Hz); [discriminate|]. cbn [scan].
      destruct (isspace z) eqn:E; [|reflexivity]. apply isspace_iff in E. exfalso. apply (upper_not_space z Hz E). }
    rewrite Hsc. cbn [L list_ascii_of_string app skipn]. rewrite Hcs. cbn [map fold_left]. apply IH; [|exact HS].
    rewrite Hu, Et in Hl. cbn [app List.length] in Hl. rewrite !app_length in Hl. cbn [L list_ascii_of_string List.length] in Hl. lia.
Qed.

Lemma ipt_exact want t n v : parseIptables want t = Ok (n, v) <->
  n = List.length t /\ exists fs, ipt_g fs t /\ v = if want then stored_in_order (map ipt_member fs) else JNull.
Proof.
  assert (HG : forall fs, ipt_g fs t <-> ipt_shape fs t /\ 2 <= List.length fs).
  { intros fs. unfold ipt_g, ipt_shape. split.
    - intros (H1 & H2 & [H3|H3]); (split; [split; [exact H2|]|exact H1]); [left; exact H3|right; split; [destruct fs; [cbn in H1; lia|discriminate]|exact H3]].
    - intros ((H2 & [H3|[_ H3]]) & H1); auto. }
  unfold parseIptables. split.
  - intros H. apply bind_ok in H. destruct H as ([k nf] & H1 & H). cbv beta iota in H.
    apply stage1_spec in H1; [|lia]. destruct H1 as (fs & HS & -> & ->).
    destruct (Nat.ltb_spec (List.length fs) 2) as [|H2]; [discriminate|]. cbn [negb] in H.
    rewrite (stage2_spec (S (List.length t)) t fs [] ltac:(lia) HS) in H.
    destruct want; cbn [negb] in H; injection H as <- <-; (split; [reflexivity|]); exists fs; (split; [apply HG; auto|reflexivity]).
  - intros (-> & fs & HGf & ->). apply HG in HGf. destruct HGf as [HS H2].
    rewrite (proj2 (stage1_spec (S (List.length t)) t ltac:(lia) (List.length t) (List.length fs))) by eauto. cbn [bind].
    destruct (Nat.ltb_spec (List.length fs) 2); [lia|]. cbn [negb]. destruct want; cbn [negb]; [|reflexivity].
    rewrite (stage2_spec (S (List.length t)) t fs [] ltac:(lia) HS). reflexivity.
Qed.

(** ** json and cee-syslog *)
Lemma json_exact e want t n v : json_contract e -> (parseJSON e want t = Ok (n, v) <->
  (exists r, t = L "{" ++ r) /\ exists j, json_tok e t = Some (j, n) /\ v = if want then j else JNull).
Proof.
  intros HC. unfold parseJSON. split.
  - intros H. apply bind_ok in H. destruct H as (c & Hc & H). destruct (ceq c "{" || ceq c "]")%bool eqn:E; [|discriminate].
    destruct (json_tok e t) as [[j m]|] eqn:ET; [|discriminate]. injection H as <- <-. split; [|eauto].
    destruct t as [|x r]; [cbn in Hc; injection Hc as <-; discriminate|]. cbn in Hc. injection Hc as ->.
    apply orb_true_iff in E. destruct E as [E|E]; apply ceq_true in E; subst c; [exists r; reflexivity|]. rewrite HC in ET. discriminate.
  - intros ((r & ->) & j & HT & ->). change (rd (L "{" ++ r) 0) with (Ok "{"%char). cbn [bind]. rewrite ceq_refl. cbn [orb]. rewrite HT. reflexivity.
Qed.
Lemma cee_exact e offs want t n v : (parseCEE e offs want t = Ok (n, v) <->
  n = offs + List.length t /\ exists j, cee_g e j t /\ v = if want then j else JNull).
Proof.
  unfold parseCEE, cee_g. split.
  - destruct (Nat.ltb_spec (List.length t) 7) as [|Hl]; [discriminate|]. cbn [negb]. intros H.
    apply bind_ok in H. destruct H as ([] & H1 & H).
    do 5 (destruct t as [|? t]; [cbn in Hl; lia|]).
    assert (HP : forall b (c : res unit), (if b : bool then c else Bad 0) = Ok tt -> b = true /\ c = Ok tt) by (intros [] c HH; [auto|discriminate]).
    cbn [rdall rd nth_error bind] in H1.
    repeat (apply HP in H1; destruct H1 as [?E H1]). apply ceq_true in E, E0, E1, E2, E3. subst.
    cbn [skipn] in H. destruct (run_split isspace t) as (a & b & -> & Ha & Hb & Hs). rewrite Hs in H.
    destruct (Nat.eqb_spec (5 + List.length a) (List.length ("@"%char :: "c"%char :: "e"%char :: "e"%char :: ":"%char :: a ++ b))) as [|Hne]; [discriminate|]. cbn [negb] in H.
    cbn [List.length] in Hne, Hl. rewrite app_length in Hne, Hl.
    destruct b as [|c b]; [cbn in Hne; lia|].
    rewrite (rd_app1 ("@"%char :: "c"%char :: "e"%char :: "e"%char :: ":"%char :: a) c b) in H by reflexivity. cbn [bind] in H.
    destruct (ceq c "{") eqn:EC; [|discriminate]. apply ceq_true in EC. subst c.
    change (5 + List.length a) with (List.length ("@"%char :: "c"%char :: "e"%char :: "e"%char :: ":"%char :: a)) in H.
    change ("@"%char :: "c"%char :: "e"%char :: "e"%char :: ":"%char :: a ++ "{"%char :: b) with (("@"%char :: "c"%char :: "e"%char :: "e"%char :: ":"%char :: a) ++ "{"%char :: b) in H.
    rewrite skipn_app_exact in H. destruct (json_tok e ("{"%char :: b)) as [[j m]|] eqn:ET; [|discriminate].
    rewrite app_length in H.
    destruct (Nat.eqb_spec (List.length ("@"%char :: "c"%char :: "e"%char :: "e"%char :: ":"%char :: a) + m) (List.length ("@"%char :: "c"%char :: "e"%char :: "e"%char :: ":"%char :: a) + List.length ("{"%char :: b))) as [Hm|]; [|discriminate].
    assert (m = List.length ("{"%char :: b)) as -> by lia.
    split; [|exists j; split].
    + injection H as <- _. cbn [List.length]. rewrite app_length. reflexivity.
    + exists a, ("{"%char :: b). split; [reflexivity|]. split; [eapply Forall_impl; [|exact Ha]; intros x Hx; apply isspace_iff; exact Hx|].
      split; [cbn [List.length] in *; lia|]. split; [exists b; reflexivity|exact ET].
    + congruence.
  - intros (-> & j & (a & b & -> & Ha & Hl & (r & Hr) & HT) & ->).
    assert (HL : List.length (L "@cee:" ++ a ++ b) = 5 + (List.length a + List.length b)) by (rewrite !app_length; reflexivity).
    rewrite HL. destruct (Nat.ltb_spec (5 + (List.length a + List.length b)) 7); [lia|]. cbn [negb].
    change (rdall (L "@cee:" ++ a ++ b) 0 [ceq "@"; ceq "c"; ceq "e"; ceq "e"; ceq ":"]) with (@Ok unit tt). cbn [bind].
    change (skipn 5 (L "@cee:" ++ a ++ b)) with (a ++ b).
    rewrite (scan_run isspace a b).
    2: { eapply Forall_impl; [|exact Ha]. intros x Hx. apply isspace_iff. exact Hx. }
    2: { intros c q Hq. rewrite Hr in Hq. injection Hq as <- _. reflexivity. }
    destruct (Nat.eqb_spec (5 + List.length a) (5 + (List.length a + List.length b))) as [HH|_]; [rewrite Hr in HH; cbn in HH; lia|]. cbn [negb].
    assert (HR : rd (L "@cee:" ++ a ++ b) (5 + List.length a) = Ok "{"%char).
    { rewrite Hr. rewrite app_assoc. apply rd_app1. rewrite app_length. reflexivity. }
    rewrite HR. cbn [bind]. rewrite ceq_refl.
    assert (HK : skipn (5 + List.length a) (L "@cee:" ++ a ++ b) = b).
    { rewrite app_assoc. replace (5 + List.length a) with (List.length (L "@cee:" ++ a)) by (rewrite app_length; reflexivity). apply skipn_app_exact. }
    rewrite HK, HT. destruct (Nat.eqb_spec (5 + List.length a + List.length b) (5 + (List.length a + List.length b))); [reflexivity|lia].
Qed.
