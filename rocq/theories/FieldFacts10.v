(** * FieldFacts10: string. *)
From Verif Require Import Base Time Parsers BaseFacts FieldSpec FieldSpec2 SafetySpec FieldFacts FieldFacts2 FieldFacts3 FieldFacts4 IntFacts DateFacts FieldFacts6 FieldFacts7 FieldFacts8.
From Coq Require Import ZifyBool ZifyNat ZifyN.

Definition s_char_ok (e : env) (c : ascii) : Prop := char_signed e = true -> (code c < 128)%N.
Definition permb (cfg : strcfg) (c : ascii) : bool := match s_perm cfg with None => true | Some l => mem l c end.
Lemma permb_iff cfg c : permb cfg c = true <-> s_permitted cfg c.
Proof. unfold permb, s_permitted. destruct (s_perm cfg); [apply mem_In|tauto]. Qed.
Lemma permb_not cfg c : permb cfg c = false <-> ~ s_permitted cfg c.
Proof. rewrite <- permb_iff. destruct (permb cfg c); intuition congruence. Qed.
Lemma isperm e cfg c : s_char_ok e c -> isPermitted e cfg c = Ok (permb cfg c).
Proof.
  intros H. unfold isPermitted, s_char_ok in *. destruct (char_signed e); [|reflexivity]. specialize (H eq_refl).
  destruct (N.leb_spec 128 (code c)); [lia|reflexivity].
Qed.

(** the loop over what is left of the message *)
Fixpoint sscan (fuel : nat) (cfg : strcfg) (u : text) (haveq : bool) : nat * bool * bool :=
  match fuel with
  | O => (0, false, false)
  | S f =>
      let plain (d : nat) (h : bool) (c : ascii) (r : text) :=
        if (negb haveq && ceq c " ")%bool then (d, false, h)
        else if negb (permb cfg c) then (d, false, h)
        else let '(k, q, h') := sscan f cfg r haveq in (S d + k, q, (h || h')%bool) in
      match u with
      | [] => (0, false, false)
      | c :: r =>
          if (haveq && ceq c (s_qe cfg))%bool then
            match r with
            | d :: r' => if (s_escdbl cfg && ceq d (s_qe cfg))%bool then plain 1 true d r' else (0, true, false)
            | [] => (0, true, false)
            end
          else match r with
               | d :: r' => if (ceq c "\" && s_escbs cfg)%bool then plain 1 true d r' else plain 0 false c r
               | [] => plain 0 false c r
               end
      end
  end.

Lemma isperm_inv e cfg c b : isPermitted e cfg c = Ok b -> b = permb cfg c.
Proof. unfold isPermitted. destruct (char_signed e && N.leb 128 (code c))%bool; [discriminate|]. intros [= <-]. reflexivity. Qed.
Definition agrees (e : env) (u : text) (a : nat) (h0 : bool) (r : nat * bool * bool) (X : res (nat * bool * bool)) : Prop :=
  let '(k, q, h') := r in
  (Forall (s_char_ok e) (firstn (S k) u) -> X = Ok (a + k, q, (h0 || h')%bool)) /\ (forall z, X = Ok z -> z = (a + k, q, (h0 || h')%bool)).
Lemma sscan_ok e cfg : s_qe cfg <> "\"%char -> forall fuel a u haveq h, List.length u < fuel ->
  agrees e u (List.length a) h (sscan fuel cfg u haveq) (string_scan fuel e cfg (a ++ u) (List.length a) haveq h).
Proof.
  intros Hq. induction fuel as [|fuel IH]; intros a u haveq h Hf; [lia|].
  cbn [string_scan sscan]. rewrite app_length. destruct u as [|c r].
  { rewrite Nat.add_0_r, Nat.ltb_irrefl. cbn [negb agrees]. rewrite orb_false_r, Nat.add_0_r. split; [reflexivity|congruence]. }
  destruct (Nat.ltb_spec (List.length a) (List.length a + List.length (c :: r))) as [_|HH]; [|cbn in HH; lia]. cbn [negb].
  assert (R0 : rd (a ++ c :: r) (List.length a) = Ok c) by (apply rd_app1; reflexivity). rewrite R0. cbn [bind].
  (* the last part of the step, at the character [x] *)
  assert (HP : forall p x y h0, c :: r = p ++ x :: y -> List.length y < fuel ->
     agrees e (c :: r) (List.length a) h0
       (if (negb haveq && ceq x " ")%bool then (List.length p, false, false)
        else if negb (permb cfg x) then (List.length p, false, false)
        else let '(k, q, h') := sscan fuel cfg y haveq in (S (List.length p) + k, q, h'))
     (let* z := rd (a ++ c :: r) (List.length a + List.length p) in
      if (negb haveq && ceq z " ")%bool then Ok (List.length a + List.length p, false, h0) else
      let* p0 := isPermitted e cfg z in
      if negb p0 then Ok (List.length a + List.length p, false, h0) else
      string_scan fuel e cfg (a ++ c :: r) (S (List.length a + List.length p)) haveq h0)).
  { intros p x y h0 HE Hl. rewrite HE. rewrite <- app_length, app_assoc, rd_app1 by reflexivity. cbn [bind].
    destruct (negb haveq && ceq x " ")%bool; [cbn [agrees]; rewrite orb_false_r, app_length; split; [reflexivity|congruence]|].
    assert (HX : forall m, List.length p <= m -> Forall (s_char_ok e) (firstn (S m) (p ++ x :: y)) -> isPermitted e cfg x = Ok (permb cfg x)).
    { intros m Hm HF. apply isperm. rewrite Forall_forall in HF. apply HF. rewrite firstn_app. apply in_or_app. right. replace (S m - List.length p) with (S (m - List.length p)) by lia. left. reflexivity. }
    destruct (permb cfg x) eqn:EP; cbn [negb].
    - replace ((a ++ p) ++ x :: y) with ((a ++ p ++ [x]) ++ y) by (rewrite <- !app_assoc; reflexivity).
      replace (S (List.length (a ++ p))) with (List.length (a ++ p ++ [x])) by (rewrite !app_length; cbn; lia).
      specialize (IH (a ++ p ++ [x]) y haveq h0 Hl). destruct (sscan fuel cfg y haveq) as [[k q] h']. cbn [agrees] in *. destruct IH as [IH1 IH2].
      assert (HK : List.length (a ++ p ++ [x]) + k = List.length a + (S (List.length p) + k)) by (rewrite !app_length; cbn [List.length]; lia). rewrite HK in *.
      split.
      + intros HF. rewrite (HX (S (List.length p) + k) ltac:(lia) HF). cbn [bind negb]. apply IH1.
        rewrite firstn_app in HF. apply Forall_app in HF. destruct HF as [_ HF]. replace (S (S (List.length p) + k) - List.length p) with (S (S k)) in HF by lia. cbn [firstn] in HF. apply Forall_inv_tail in HF. exact HF.
      + intros z Hz. destruct (isPermitted e cfg x) as [b| |] eqn:EI; try discriminate. cbn [bind] in Hz. apply isperm_inv in EI. rewrite EP in EI. subst b. cbn [negb] in Hz. apply IH2. exact Hz.
    - cbn [agrees]. rewrite orb_false_r, app_length. split.
      + intros HF. rewrite (HX _ (le_n _) HF). reflexivity.
      + intros z Hz. destruct (isPermitted e cfg x) as [b| |] eqn:EI; try discriminate. cbn [bind] in Hz. apply isperm_inv in EI. rewrite EP in EI. subst b. cbn [negb] in Hz. congruence. }
  cbn [List.length] in Hf.
  assert (HPT : forall p x y X, c :: r = p ++ x :: y -> agrees e (c :: r) (List.length a) true
       (if (negb haveq && ceq x " ")%bool then (List.length p, false, false)
        else if negb (permb cfg x) then (List.length p, false, false)
        else let '(k, q, h') := sscan fuel cfg y haveq in (S (List.length p) + k, q, h')) X ->
      agrees e (c :: r) (List.length a) h
       (if (negb haveq && ceq x " ")%bool then (List.length p, false, true)
        else if negb (permb cfg x) then (List.length p, false, true)
        else let '(k, q, h') := sscan fuel cfg y haveq in (S (List.length p) + k, q, (true || h')%bool)) X).
  { intros p x y X _. destruct (negb haveq && ceq x " ")%bool; [cbn [agrees]; rewrite orb_true_r; auto|]. destruct (negb (permb cfg x)); [cbn [agrees]; rewrite orb_true_r; auto|].
    destruct (sscan fuel cfg y haveq) as [[k q] h']. cbn [agrees orb]. rewrite orb_true_r. auto. }
  destruct (haveq && ceq c (s_qe cfg))%bool eqn:EQ.
  - apply andb_true_iff in EQ. destruct EQ as [EQ1 EQ2]. apply ceq_true in EQ2.
    assert (HSTOP : agrees e (c :: r) (List.length a) h (0, true, false) (Ok (List.length a, true, h))) by (cbn [agrees]; rewrite orb_false_r, Nat.add_0_r; split; [reflexivity|congruence]).
    destruct r as [|d r].
    + replace (Nat.ltb (List.length a + 1) (List.length a + List.length [c])) with false by (symmetry; apply Nat.ltb_ge; cbn; lia). cbn [bind].
      destruct (s_escdbl cfg); cbn [bind]; exact HSTOP.
    + replace (Nat.ltb (List.length a + 1) (List.length a + List.length (c :: d :: r))) with true by (symmetry; apply Nat.ltb_lt; cbn; lia).
      replace (rd (a ++ c :: d :: r) (List.length a + 1)) with (Ok d) by (rewrite rd_at; reflexivity). cbn [bind].
      destruct (s_escdbl cfg); cbn [andb]; [|cbn [bind]; exact HSTOP].
      destruct (ceq d (s_qe cfg)) eqn:ED; [|cbn [bind]; exact HSTOP]. cbn [bind]. apply ceq_true in ED.
      replace (S (List.length a)) with (List.length a + List.length [c]) by (cbn; lia).
      replace (rd (a ++ c :: d :: r) (List.length a + List.length [c])) with (Ok d) by (cbn [List.length]; rewrite rd_at; reflexivity). cbn [bind].
      replace (ceq d "\") with false by (symmetry; apply ceq_false; congruence). cbn [andb].
      pose proof (HP [c] d r true eq_refl ltac:(cbn [List.length] in Hf; lia)) as HPx.
      exact (HPT [c] d r _ eq_refl HPx).
  - cbn [bind]. rewrite R0. cbn [bind]. destruct r as [|d r].
    + replace (Nat.ltb (List.length a + 1) (List.length a + List.length [c])) with false by (symmetry; apply Nat.ltb_ge; cbn; lia). rewrite andb_false_r. cbn [andb].
      pose proof (HP [] c [] h eq_refl ltac:(cbn; lia)) as HPx. cbn [List.length] in HPx. rewrite Nat.add_0_r in HPx. exact HPx.
    + replace (Nat.ltb (List.length a + 1) (List.length a + List.length (c :: d :: r))) with true by (symmetry; apply Nat.ltb_lt; cbn; lia). rewrite andb_true_r.
      destruct (ceq c "\" && s_escbs cfg)%bool eqn:EB.
      * replace (S (List.length a)) with (List.length a + List.length [c]) by (cbn; lia).
        pose proof (HP [c] d r true eq_refl ltac:(cbn [List.length] in Hf; lia)) as HPx.
        exact (HPT [c] d r _ eq_refl HPx).
      * pose proof (HP [] c (d :: r) h eq_refl ltac:(cbn in *; lia)) as HPx. cbn [List.length] in HPx. rewrite Nat.add_0_r in HPx. exact HPx.
Qed.

Notation escb := is_escape.

Section Cfg.
Variable cfg : strcfg.
Hypothesis Hq : s_qe cfg <> "\"%char.

Definition quoted_body (u : text) (l : list s_item) (r : text) : Prop :=
  u = s_text cfg l ++ [s_qe cfg] ++ r /\ Forall (si_ok cfg true) l /\ (s_escdbl cfg = true -> forall c q, r = c :: q -> c <> s_qe cfg).

Lemma sq_run : forall l fuel r, List.length (s_text cfg l ++ [s_qe cfg] ++ r) < fuel -> Forall (si_ok cfg true) l ->
  (s_escdbl cfg = true -> forall c q, r = c :: q -> c <> s_qe cfg) ->
  sscan fuel cfg (s_text cfg l ++ [s_qe cfg] ++ r) true = (List.length (s_text cfg l), true, existsb escb l).
Proof.
  induction l as [|x l IH]; intros fuel r Hf HF HR; (destruct fuel as [|fuel]; [lia|]).
  - cbn [s_text flat_map app existsb List.length]. cbn [sscan]. rewrite ceq_refl. cbn [andb]. destruct r as [|d r]; [reflexivity|].
    destruct (s_escdbl cfg); cbn [andb]; [|reflexivity]. replace (ceq d (s_qe cfg)) with false; [reflexivity|]. symmetry. apply ceq_false. eapply HR; reflexivity.
  - pose proof (Forall_inv HF) as Hx. apply Forall_inv_tail in HF. cbn [s_text flat_map]. change (flat_map (si_text cfg) l) with (s_text cfg l). rewrite <- app_assoc.
    assert (Hf2 : List.length (s_text cfg l ++ [s_qe cfg] ++ r) < fuel).
    { cbn [s_text flat_map] in Hf. change (flat_map (si_text cfg) l) with (s_text cfg l) in Hf. rewrite <- app_assoc, app_length in Hf. assert (0 < List.length (si_text cfg x)) by (destruct x; cbn; lia). lia. }
    specialize (IH fuel r Hf2 HF HR).
    destruct x as [c|c|]; cbn [si_text app existsb escb orb]; cbn [sscan negb andb].
    + destruct Hx as (H1 & H2 & H3). replace (ceq c (s_qe cfg)) with false by (symmetry; apply ceq_false; exact H2).
      apply permb_iff in H1. rewrite H1. cbn [negb].
      assert (HE : exists d w, s_text cfg l ++ s_qe cfg :: r = d :: w) by (destruct (s_text cfg l); cbn; eauto). destruct HE as (d & w & HE). change ([s_qe cfg] ++ r) with (s_qe cfg :: r) in IH. cbn [app]. rewrite HE in *.
      replace (ceq c "\" && s_escbs cfg)%bool with false.
      2: { symmetry. apply andb_false_iff. destruct (s_escbs cfg); [left; apply ceq_false; auto|right; reflexivity]. }
      rewrite IH. cbn [orb]. reflexivity.
    + destruct Hx as (H1 & H2 & _). replace (ceq "\" (s_qe cfg)) with false by (symmetry; apply ceq_false; congruence). rewrite H1. cbn [ceq andb].
      rewrite ceq_refl. cbn [andb]. apply permb_iff in H2. rewrite H2. cbn [negb]. cbn [app] in IH. rewrite IH. cbn [orb]. reflexivity.
    + destruct Hx as (_ & H1 & H2). rewrite ceq_refl. rewrite H1. cbn [andb]. apply permb_iff in H2. rewrite H2. cbn [negb]. cbn [app] in IH. rewrite IH. cbn [orb]. reflexivity.
Qed.

Lemma sq_sound : forall fuel u k h, List.length u < fuel -> sscan fuel cfg u true = (k, true, h) -> exists l r, quoted_body u l r.
Proof.
  induction fuel as [|fuel IH]; intros u k h Hf H; [lia|]. cbn [sscan] in H. destruct u as [|c u]; [discriminate|]. cbn [andb negb List.length] in *.
  assert (HR : forall x y d h0, List.length y < fuel -> (if negb (permb cfg x) then (d, false, h0) else let '(k, q, h') := sscan fuel cfg y true in (S d + k, q, (h0 || h')%bool)) = (k, true, h) -> s_permitted cfg x /\ exists l r, quoted_body y l r).
  { intros x y d h0 Hl. destruct (permb cfg x) eqn:E; cbn [negb]; [|discriminate]. apply permb_iff in E. destruct (sscan fuel cfg y true) as [[k' q] h'] eqn:ES. intros HH. injection HH as _ -> _. split; [exact E|]. eapply IH; [exact Hl|exact ES]. }
  destruct (ceq c (s_qe cfg)) eqn:EQ.
  - apply ceq_true in EQ. subst c. destruct u as [|d u].
    + exists [], []. split; [reflexivity|]. split; [constructor|intros; discriminate].
    + destruct (s_escdbl cfg) eqn:ED; cbn [andb] in H.
      * destruct (ceq d (s_qe cfg)) eqn:Ed; cbn [andb] in H.
        -- apply ceq_true in Ed. subst d. apply HR in H; [|cbn in Hf; lia]. destruct H as (HP & l & r & HB1 & HB2 & HB3). exists (SDbl :: l), r. split; [rewrite HB1; reflexivity|]. split; [|exact HB3]. constructor; [|exact HB2]. cbn. auto.
        -- exists [], (d :: u). split; [reflexivity|]. split; [constructor|]. intros _ x q [= <- _]. apply ceq_false. exact Ed.
      * exists [], (d :: u). split; [reflexivity|]. split; [constructor|]. intros; congruence.
  - apply ceq_false in EQ. 
    assert (HPL : (ceq c "\" && s_escbs cfg)%bool = false -> s_permitted cfg c -> (exists l r, quoted_body u l r) -> exists l r, quoted_body (c :: u) l r).
    { intros HB HP (l & r & HB1 & HB2 & HB3). exists (SPlain c :: l), r. split; [rewrite HB1; reflexivity|]. split; [|exact HB3]. constructor; [|exact HB2]. cbn. split; [exact HP|]. split; [exact EQ|]. intros Hb ->. rewrite Hb in HB. discriminate. }
    destruct u as [|d u].
    + apply HR in H; [|cbn in *; lia]. destruct H as (HP & l & r & HB1 & _). destruct (s_text cfg l); discriminate.
    + destruct (ceq c "\" && s_escbs cfg)%bool eqn:EB.
      * apply HR in H; [|cbn in Hf; lia]. apply andb_true_iff in EB. destruct EB as [EB1 EB2]. apply ceq_true in EB1. subst c. destruct H as (HP & l & r & HB1 & HB2 & HB3).
        exists (SEsc d :: l), r. split; [rewrite HB1; reflexivity|]. split; [|exact HB3]. constructor; [|exact HB2]. cbn. auto.
      * apply HR in H; [|cbn in *; lia]. destruct H as (HP & HB). apply HPL; auto.
Qed.

Definition stop_ok (tail post : text) : Prop :=
  ((tail = [] /\ (post = [] \/ exists c r, post = c :: r /\ s_stops cfg c /\ (c = "\"%char -> s_escbs cfg = true -> r = []))) \/
   (tail = L "\" /\ s_escbs cfg = true /\ ((post = [] /\ s_permitted cfg "\"%char) \/ exists c r, post = c :: r /\ s_stops cfg c))).
Definition plain_body (u : text) (l : list s_item) (tail post : text) : Prop :=
  u = s_text cfg l ++ tail ++ post /\ Forall (si_ok cfg false) l /\ stop_ok tail post.
Definition tail_esc (tail post : text) : bool := match tail, post with _ :: _, _ :: _ => true | _, _ => false end.
Lemma stops_iff c : (ceq c " " || negb (permb cfg c))%bool = true <-> s_stops cfg c.
Proof. unfold s_stops. rewrite orb_true_iff, negb_true_iff, ceq_true, permb_not. tauto. Qed.
Lemma stops_if {A} c (x y : A) : (if (true && ceq c " ")%bool then x else if negb (permb cfg c) then x else y) = if (ceq c " " || negb (permb cfg c))%bool then x else y.
Proof. cbn [andb]. destruct (ceq c " "); [reflexivity|]. cbn [orb]. reflexivity. Qed.

Lemma su_sound : forall fuel u, List.length u < fuel -> exists l tail post, plain_body u l tail post.
Proof.
  induction fuel as [|fuel IH]; intros u Hf; [lia|]. destruct u as [|c u].
  { exists [], [], []. split; [reflexivity|]. split; [constructor|]. left. auto. }
  cbn [List.length] in Hf.
  assert (HC : forall x, s_stops cfg x \/ (s_permitted cfg x /\ x <> " "%char)).
  { intros x. destruct (ceq x " " || negb (permb cfg x))%bool eqn:E; [left; apply stops_iff; exact E|right]. apply orb_false_iff in E. destruct E as [E1 E2]. apply negb_false_iff, permb_iff in E2. apply ceq_false in E1. auto. }
  assert (HBS : (c = "\"%char /\ s_escbs cfg = true) \/ (s_escbs cfg = true -> c <> "\"%char)).
  { destruct (ceq c "\") eqn:E; [apply ceq_true in E|apply ceq_false in E; auto]. destruct (s_escbs cfg); [auto|right; discriminate]. }
  destruct HBS as [[-> HB]|HB].
  - destruct u as [|d u].
    + destruct (HC "\"%char) as [HS|[HP _]].
      * exists [], [], (L "\"). split; [reflexivity|]. split; [constructor|]. left. split; [reflexivity|]. right. eexists _, _. split; [reflexivity|]. auto.
      * exists [], (L "\"), []. split; [reflexivity|]. split; [constructor|]. right. auto.
    + destruct (HC d) as [HS|[HP Hsp]].
      * exists [], (L "\"), (d :: u). split; [reflexivity|]. split; [constructor|]. right. split; [reflexivity|]. split; [exact HB|]. right. eauto.
      * destruct (IH u) as (l & tail & post & H1 & H2 & H3); [cbn in Hf; lia|]. exists (SEsc d :: l), tail, post. split; [rewrite H1; reflexivity|]. split; [|exact H3]. constructor; [cbn; auto|exact H2].
  - destruct (HC c) as [HS|[HP Hsp]].
    + exists [], [], (c :: u). split; [reflexivity|]. split; [constructor|]. left. split; [reflexivity|]. right. exists c, u. split; [reflexivity|]. split; [exact HS|]. intros Hc He. exfalso. apply HB; auto.
    + destruct (IH u) as (l & tail & post & H1 & H2 & H3); [lia|]. exists (SPlain c :: l), tail, post. split; [rewrite H1; reflexivity|]. split; [|exact H3]. constructor; [cbn; auto|exact H2].
Qed.

Lemma su_run : forall l fuel tail post, List.length (s_text cfg l ++ tail ++ post) < fuel -> Forall (si_ok cfg false) l -> stop_ok tail post ->
  sscan fuel cfg (s_text cfg l ++ tail ++ post) false = (List.length (s_text cfg l ++ tail), false, (existsb escb l || tail_esc tail post)%bool).
Proof.
  induction l as [|x l IH]; intros fuel tail post Hf HF HS; (destruct fuel as [|fuel]; [lia|]).
  - cbn [s_text flat_map app existsb orb]. unfold stop_ok in HS. destruct HS as [[-> [->|(c & r & -> & HS & HB)]]|(-> & HB & [[-> HP]|(c & r & -> & HS)])].
    + reflexivity.
    + cbn [app List.length tail_esc]. cbn [sscan andb negb]. apply stops_iff in HS.
      assert (HX : forall (d : nat) (w0 : nat * bool * bool) (h : bool), (if ceq c " " then (d, false, h) else if negb (permb cfg c) then (d, false, h) else w0) = (d, false, h)).
      { intros d w0 h. destruct (ceq c " "); [reflexivity|]. cbn [orb] in HS. rewrite HS. reflexivity. }
      destruct r as [|d r]; [rewrite HX; reflexivity|]. replace (ceq c "\" && s_escbs cfg)%bool with false; [rewrite HX; reflexivity|].
      symmetry. apply andb_false_iff. destruct (ceq c "\") eqn:Ec; [right|left; reflexivity]. apply ceq_true in Ec. destruct (s_escbs cfg); [|reflexivity]. specialize (HB Ec eq_refl). discriminate.
    + rewrite app_nil_r. cbn [L list_ascii_of_string List.length tail_esc app]. cbn [sscan andb negb]. change (ceq "\" " ") with false. cbv iota. apply permb_iff in HP. rewrite HP. cbn [negb]. destruct fuel; reflexivity.
    + cbn [L list_ascii_of_string app List.length tail_esc]. cbn [sscan andb negb]. rewrite HB. rewrite ceq_refl. cbn [andb]. apply stops_iff in HS.
      destruct (ceq c " "); [reflexivity|]. cbn [orb] in HS. rewrite HS. reflexivity.
  - pose proof (Forall_inv HF) as Hx. apply Forall_inv_tail in HF. cbn [s_text flat_map]. change (flat_map (si_text cfg) l) with (s_text cfg l). rewrite <- !app_assoc.
    assert (Hf2 : List.length (s_text cfg l ++ tail ++ post) < fuel).
    { cbn [s_text flat_map] in Hf. change (flat_map (si_text cfg) l) with (s_text cfg l) in Hf. rewrite <- app_assoc, app_length in Hf. assert (0 < List.length (si_text cfg x)) by (destruct x; cbn; lia). lia. }
    specialize (IH fuel tail post Hf2 HF HS).
    destruct x as [c|c|]; cbn [si_text app existsb escb orb]; cbn [sscan negb andb].
    + destruct Hx as (H1 & H2 & H3). apply permb_iff in H1. apply ceq_false in H2. rewrite H1, H2. cbn [negb]. rewrite IH.
      replace (ceq c "\" && s_escbs cfg)%bool with false.
      2: { symmetry. apply andb_false_iff. destruct (s_escbs cfg); [left; apply ceq_false; auto|right; reflexivity]. }
      destruct (s_text cfg l ++ tail ++ post); reflexivity.
    + destruct Hx as (H1 & H2 & H3). rewrite H1. rewrite ceq_refl. cbn [andb]. apply permb_iff in H2. apply ceq_false in H3. rewrite H2, H3. cbn [negb]. rewrite IH. reflexivity.
    + destruct Hx as (H1 & _). discriminate.
Qed.
End Cfg.

(** removal of escapes *)
Lemma unesc_cons cfg c s : string_unesc cfg (c :: s) =
  match s with [] => if esc_here cfg c NUL then [] else [c] | d :: s'' => if esc_here cfg c d then d :: string_unesc cfg s'' else c :: string_unesc cfg s end.
Proof. destruct s; reflexivity. Qed.
Lemma has_esc_cons cfg c s : has_esc cfg (c :: s) = match s with [] => esc_here cfg c NUL | d :: _ => (esc_here cfg c d || has_esc cfg s)%bool end.
Proof. destruct s; reflexivity. Qed.

Lemma unesc_items cfg quoted tail : s_qe cfg <> "\"%char -> s_qe cfg <> NUL -> (tail = [] \/ tail = L "\" /\ s_escbs cfg = true) ->
  forall l, Forall (si_ok cfg quoted) l -> (quoted = true \/ s_escdbl cfg = false \/ ~ In (s_qe cfg) (s_text cfg l)) ->
  string_unesc cfg (s_text cfg l ++ tail) = map (si_val cfg) l.
Proof.
  intros Hq Hn HT. induction l as [|x l IH]; intros HF HD.
  - cbn. destruct HT as [->|[-> HB]]; [reflexivity|]. cbn. unfold esc_here. rewrite HB. cbn. rewrite orb_true_r. reflexivity.
  - pose proof (Forall_inv HF) as Hx. apply Forall_inv_tail in HF. cbn [s_text flat_map map] in *. change (flat_map (si_text cfg) l) with (s_text cfg l) in *. rewrite <- app_assoc.
    assert (HD2 : quoted = true \/ s_escdbl cfg = false \/ ~ In (s_qe cfg) (s_text cfg l)) by (destruct HD as [HD|[HD|HD]]; auto; right; right; intros Hi; apply HD; apply in_or_app; auto).
    specialize (IH HF HD2). destruct x as [c|c|]; cbn [si_text app si_val].
    + destruct Hx as (H1 & H2 & H3).
      assert (HE : forall d, d = NUL \/ True -> esc_here cfg c d = false).
      { intros d _. unfold esc_here. apply orb_false_iff. split.
        - destruct (ceq c (s_qe cfg)) eqn:Ec; [|reflexivity]. apply ceq_true in Ec. destruct HD as [->|[HD|HD]].
          + exfalso. apply H2. exact Ec.
          + rewrite HD. rewrite andb_false_r. reflexivity.
          + exfalso. apply HD. left. cbn. exact Ec.
        - apply andb_false_iff. destruct (s_escbs cfg); [left; apply ceq_false; auto|right; reflexivity]. }
      rewrite unesc_cons. destruct (s_text cfg l ++ tail) as [|d w] eqn:E; rewrite HE by auto.
      * destruct l as [|y l]; [reflexivity|]. exfalso. destruct y; discriminate.
      * rewrite <- IH. reflexivity.
    + destruct Hx as (H1 & H2 & _). rewrite unesc_cons. replace (esc_here cfg "\" c) with true; [rewrite IH; reflexivity|].
      unfold esc_here. rewrite ceq_refl, H1. cbn. symmetry. apply orb_true_r.
    + destruct Hx as (_ & H1 & _). rewrite unesc_cons. replace (esc_here cfg (s_qe cfg) (s_qe cfg)) with true; [rewrite IH; reflexivity|].
      unfold esc_here. rewrite ceq_refl, H1. reflexivity.
Qed.
Lemma plain_items cfg l : existsb escb l = false -> s_text cfg l = map (si_val cfg) l.
Proof. induction l as [|x l IH]; intros H; [reflexivity|]. cbn in H. apply orb_false_iff in H. destruct H as [H1 H2]. cbn. destruct x; try discriminate. cbn. f_equal. apply IH. exact H2. Qed.

Lemma cstr_id s : ~ In NUL s -> cstr s = s.
Proof.
  induction s as [|c s IH]; intros H; [reflexivity|]. cbn [cstr]. replace (ceq c NUL) with false; [f_equal; apply IH; intros Hi; apply H; right; exact Hi|].
  symmetry. apply ceq_false. intros ->. apply H. left. reflexivity.
Qed.
Lemma value_no_nul cfg h raw : ~ In NUL raw -> string_value cfg h raw = Ok (JStr (if h then string_unesc cfg raw else raw)).
Proof.
  intros H. unfold string_value. rewrite (cstr_id raw H). destruct h; [|reflexivity]. rewrite Nat.ltb_irrefl, andb_false_r. reflexivity.
Qed.

Lemma Forall_firstn_le {A} (P : A -> Prop) n m l : n <= m -> Forall P (firstn m l) -> Forall P (firstn n l).
Proof.
  revert m l. induction n as [|n IH]; intros m l Hl HF; [constructor|]. destruct m as [|m]; [lia|]. destruct l as [|x l]; [constructor|]. cbn [firstn] in *.
  constructor; [apply Forall_inv in HF; exact HF|apply Forall_inv_tail in HF; apply (IH m); [lia|exact HF]].
Qed.
(** text that can be quoted: the value, when there is one *)
Definition harm (e : env) (n : nat) (t : text) : Prop := ~ In NUL (firstn n t) /\ Forall (s_char_ok e) (firstn (S n) t).
Lemma string_exact e cfg want t n v : s_qe cfg <> "\"%char -> s_qe cfg <> NUL -> harm e n t ->
  (parseString e cfg want t = Ok (n, v) <->
   (exists l post, s_quoted_g cfg t l post /\ n = 2 + List.length (s_text cfg l) /\ v = if want then JStr (map (si_val cfg) l) else JNull) \/
   (exists l tail post, s_plain_g cfg t l tail post /\ n = List.length (s_text cfg l ++ tail) /\
     v = if want then JStr (if (existsb escb l || tail_esc tail post)%bool then string_unesc cfg (s_text cfg l ++ tail) else s_text cfg l ++ tail) else JNull)).
Proof.
  intros Hq Hn [HN HC]. unfold parseString. destruct t as [|c t].
  { cbn [List.length Nat.eqb negb]. split; [discriminate|]. intros [(l & post & (_ & H & _) & _)|(l & tail & post & (_ & H & _ & HH & _) & _)]; [discriminate|]. exfalso. apply HH. symmetry in H. rewrite app_assoc in H. apply app_eq_nil in H. tauto. }
  change (negb (Nat.eqb (List.length (c :: t)) 0)) with true. cbv iota. change (rd (c :: t) 0) with (Ok c). cbn [bind].
  (* which of the two *)
  set (T := c :: t) in *. assert (HLT : List.length T = S (List.length t)) by reflexivity.
  assert (HQ1 : forall i he, string_scan (S (List.length T)) e cfg T 1 true false = Ok (i, true, he) ->
     exists l post, t = s_text cfg l ++ [s_qe cfg] ++ post /\ Forall (si_ok cfg true) l /\ (s_escdbl cfg = true -> forall c q, post = c :: q -> c <> s_qe cfg) /\
       i = 1 + List.length (s_text cfg l) /\ he = existsb escb l).
  { intros i he H. pose proof (sscan_ok e cfg Hq (S (List.length T)) [c] t true false ltac:(lia)) as HS. cbn [List.length app] in HS. fold T in HS.
    destruct (sscan (S (List.length T)) cfg t true) as [[k q] h] eqn:ES. cbn [agrees] in HS. apply HS in H. injection H as -> <- ->.
    destruct (sq_sound cfg (S (List.length T)) t k h ltac:(lia) ES) as (l & r & H1 & H2 & H3).
    rewrite H1 in ES, HLT. rewrite (sq_run cfg Hq l) in ES; [|lia|exact H2|exact H3]. injection ES as <- <-. exists l, r. auto 6. }
  assert (HQ2 : forall l post, t = s_text cfg l ++ [s_qe cfg] ++ post -> Forall (si_ok cfg true) l -> (s_escdbl cfg = true -> forall c q, post = c :: q -> c <> s_qe cfg) ->
     Forall (s_char_ok e) (firstn (S (List.length (s_text cfg l))) t) -> string_scan (S (List.length T)) e cfg T 1 true false = Ok (1 + List.length (s_text cfg l), true, existsb escb l)).
  { intros l post HT H2 H3 HF. pose proof (sscan_ok e cfg Hq (S (List.length T)) [c] t true false ltac:(lia)) as HS. cbn [List.length app] in HS. fold T in HS.
    assert (HR := sq_run cfg Hq l (S (List.length T)) post). rewrite <- HT in HR. rewrite HR in HS; [|lia|exact H2|exact H3]. cbn [agrees] in HS. destruct HS as [HS _]. exact (HS HF). }
  assert (HP0 : forall l tail post, plain_body cfg T l tail post -> sscan (S (List.length T)) cfg T false = (List.length (s_text cfg l ++ tail), false, (existsb escb l || tail_esc tail post)%bool)).
  { intros l tail post (H1 & H2 & H3). assert (HR := su_run cfg l (S (List.length T)) tail post). rewrite <- H1 in HR. rewrite HR; [reflexivity|lia|exact H2|exact H3]. }
  assert (HP1 : forall z l tail post, string_scan (S (List.length T)) e cfg T 0 false false = Ok z -> plain_body cfg T l tail post ->
     z = (List.length (s_text cfg l ++ tail), false, (existsb escb l || tail_esc tail post)%bool)).
  { intros z l tail post Hz HB. pose proof (sscan_ok e cfg Hq (S (List.length T)) [] T false false ltac:(lia)) as HS. cbn [List.length app] in HS. rewrite (HP0 _ _ _ HB) in HS. cbn [agrees] in HS. apply HS in Hz. exact Hz. }
  assert (HP2 : forall l tail post, plain_body cfg T l tail post -> Forall (s_char_ok e) (firstn (S (List.length (s_text cfg l ++ tail))) T) ->
     string_scan (S (List.length T)) e cfg T 0 false false = Ok (List.length (s_text cfg l ++ tail), false, (existsb escb l || tail_esc tail post)%bool)).
  { intros l tail post HB HF. pose proof (sscan_ok e cfg Hq (S (List.length T)) [] T false false ltac:(lia)) as HS. cbn [List.length app] in HS. rewrite (HP0 _ _ _ HB) in HS. cbn [agrees] in HS. exact (proj1 HS HF). }
  destruct (su_sound cfg (S (List.length T)) T (Nat.lt_succ_diag_r _)) as (l0 & tail0 & post0 & HB0).
  (* the two outcomes *)
  assert (HoutQ : (let* (i, endq, hadesc) := string_scan (S (List.length T)) e cfg T 1 true false in
      check (negb (true && negb endq)) ;; check (negb (Nat.eqb i 0)) ;;
      let* good := (if (Nat.ltb i 1 || s_exact cfg)%bool then let* c := rd T (S i) in Ok (ceq c " " || Nat.eqb (S i) (List.length T))%bool else Ok true) in
      check good ;;
      if negb want then Ok (if endq then S i else i, JNull)
      else let* v := string_value cfg hadesc (sub T 1 ((if endq then S i else i) - 2)) in Ok (if endq then S i else i, v)) = Ok (n, v) <->
    exists l post, t = s_text cfg l ++ [s_qe cfg] ++ post /\ Forall (si_ok cfg true) l /\ (s_escdbl cfg = true -> forall c q, post = c :: q -> c <> s_qe cfg) /\ s_follow cfg post /\
      n = 2 + List.length (s_text cfg l) /\ v = if want then JStr (map (si_val cfg) l) else JNull).
  { assert (HV : forall l post, t = s_text cfg l ++ [s_qe cfg] ++ post -> Forall (si_ok cfg true) l ->
       ((check (negb (true && negb true)) ;; check (negb (Nat.eqb (1 + List.length (s_text cfg l)) 0)) ;;
      let* good := (if (Nat.ltb (1 + List.length (s_text cfg l)) 1 || s_exact cfg)%bool then let* c := rd T (S (1 + List.length (s_text cfg l))) in Ok (ceq c " " || Nat.eqb (S (1 + List.length (s_text cfg l))) (List.length T))%bool else Ok true) in
      check good ;;
      if negb want then Ok (S (1 + List.length (s_text cfg l)), JNull)
      else let* v := string_value cfg (existsb escb l) (sub T 1 (S (1 + List.length (s_text cfg l)) - 2)) in Ok (S (1 + List.length (s_text cfg l)), v)) = Ok (n, v) <->
      s_follow cfg post /\ n = 2 + List.length (s_text cfg l) /\ v = if want then JStr (map (si_val cfg) l) else JNull)).
    { intros l post HT HF. cbn [negb andb]. change (1 + List.length (s_text cfg l)) with (S (List.length (s_text cfg l))). change (negb (Nat.eqb (S (List.length (s_text cfg l))) 0)) with true. cbv iota. change (2 + List.length (s_text cfg l)) with (S (S (List.length (s_text cfg l)))).
      assert (HT2 : T = (c :: s_text cfg l ++ [s_qe cfg]) ++ post) by (unfold T; rewrite HT; cbn [app]; rewrite <- app_assoc; reflexivity).
      assert (HLp : List.length (c :: s_text cfg l ++ [s_qe cfg]) = S (S (List.length (s_text cfg l)))) by (cbn [List.length]; rewrite app_length; cbn [List.length]; lia).
      assert (HG : (if (Nat.ltb (S (List.length (s_text cfg l))) 1 || s_exact cfg)%bool then let* c := rd T (S (S (List.length (s_text cfg l)))) in Ok (ceq c " " || Nat.eqb (S (S (List.length (s_text cfg l)))) (List.length T))%bool else Ok true)
         = Ok (if s_exact cfg then match post with [] => true | x :: _ => ceq x " " end else true)).
      { change (Nat.ltb (S (List.length (s_text cfg l))) 1) with false. cbn [orb]. destruct (s_exact cfg); [|reflexivity]. rewrite HT2, <- HLp. destruct post as [|x post].
        - rewrite app_nil_r. unfold rd. replace (nth_error (c :: s_text cfg l ++ [s_qe cfg]) (List.length (c :: s_text cfg l ++ [s_qe cfg]))) with (@None ascii) by (symmetry; apply nth_error_None; lia).
          rewrite Nat.eqb_refl. cbn [bind]. rewrite orb_true_r. reflexivity.
        - rewrite rd_app1 by reflexivity. cbn [bind]. rewrite app_length. replace (Nat.eqb _ _) with false; [rewrite orb_false_r; reflexivity|]. symmetry. apply Nat.eqb_neq. cbn [List.length]. lia. }
      rewrite HG. clear HG. cbn [bind].
      assert (HFo : (if s_exact cfg then match post with [] => true | x :: _ => ceq x " " end else true) = true <-> s_follow cfg post).
      { unfold s_follow. destruct (s_exact cfg); [|intuition discriminate]. destruct post as [|x post]; [intuition|]. rewrite ceq_true. split.
        - intros -> _. right. exists post. reflexivity.
        - intros H. destruct (H eq_refl) as [HH|[r HH]]; [discriminate|]. injection HH as -> _. reflexivity. }
      destruct (if s_exact cfg then _ else true).
      2: { split; [discriminate|]. intros [H _]. apply HFo in H. discriminate. }
      replace (S (S (List.length (s_text cfg l))) - 2) with (List.length (s_text cfg l)) by lia.
      replace (sub T 1 (List.length (s_text cfg l))) with (s_text cfg l).
      2: { unfold T. rewrite HT. symmetry. apply (sub_at [c]); reflexivity. }
      destruct (Nat.eq_dec n (S (S (List.length (s_text cfg l))))) as [Hnn|Hnn].
      2: { split; [|tauto]. destruct want; cbn [negb]; [|intros H; injection H; congruence]. intros H. apply bind_ok in H. destruct H as (w & _ & H). injection H. congruence. }
      assert (HNl : ~ In NUL (s_text cfg l)) by (intros Hi; apply HN; rewrite Hnn, <- HLp, HT2, firstn_app_exact; right; apply in_or_app; left; exact Hi).
      assert (HVl : (if existsb escb l then string_unesc cfg (s_text cfg l) else s_text cfg l) = map (si_val cfg) l).
      { destruct (existsb escb l) eqn:Eb; [|apply plain_items; exact Eb]. rewrite <- (app_nil_r (s_text cfg l)). eapply (unesc_items cfg true []); auto. }
      rewrite (value_no_nul cfg _ _ HNl), HVl. cbn [bind]. pose proof (proj1 HFo eq_refl) as HFF. destruct want; cbn [negb].
      - split; [intros H; injection H as <- <-; auto|intros (_ & -> & ->); reflexivity].
      - split; [intros H; injection H as <- <-; auto|intros (_ & -> & ->); reflexivity]. }
    split.
    - destruct (string_scan (S (List.length T)) e cfg T 1 true false) as [[[i q] he]| |] eqn:HS; try discriminate. cbn [bind]. destruct q; [|discriminate]. destruct (HQ1 i he eq_refl) as (l & post & H1 & H2 & H3 & -> & ->). intros H.
      apply (HV l post H1 H2) in H. destruct H as (G1 & G2 & G3). exists l, post. auto 8.
    - intros (l & post & H1 & H2 & H3 & G1 & G2 & G3). rewrite (HQ2 l post H1 H2 H3). 2: { rewrite G2 in HC. assert (HC2 : Forall (s_char_ok e) (firstn (2 + List.length (s_text cfg l)) t)) by (apply Forall_inv_tail in HC; exact HC).
        apply (Forall_firstn_le _ _ (2 + List.length (s_text cfg l))); [lia|exact HC2]. }
      cbn [bind]. apply (HV l post H1 H2). auto. }
  assert (HoutP : (let* (i, endq, hadesc) := string_scan (S (List.length T)) e cfg T 0 false false in
      check (negb (false && negb endq)) ;; check (negb (Nat.eqb i 0)) ;;
      let* good := (if (Nat.ltb i 1 || s_exact cfg)%bool then let* c := rd T i in Ok (ceq c " " || Nat.eqb i (List.length T))%bool else Ok true) in
      check good ;;
      if negb want then Ok (if endq then S i else i, JNull)
      else let* v := string_value cfg hadesc (firstn (if endq then S i else i) T) in Ok (if endq then S i else i, v)) = Ok (n, v) <->
    exists l tail post, plain_body cfg T l tail post /\ s_text cfg l ++ tail <> [] /\ s_follow cfg post /\
      n = List.length (s_text cfg l ++ tail) /\
     v = if want then JStr (if (existsb escb l || tail_esc tail post)%bool then string_unesc cfg (s_text cfg l ++ tail) else s_text cfg l ++ tail) else JNull).
  { assert (HV : forall l tail post, plain_body cfg T l tail post ->
       ((check (negb (false && negb false)) ;; check (negb (Nat.eqb (List.length (s_text cfg l ++ tail)) 0)) ;;
      let* good := (if (Nat.ltb (List.length (s_text cfg l ++ tail)) 1 || s_exact cfg)%bool then let* c := rd T (List.length (s_text cfg l ++ tail)) in Ok (ceq c " " || Nat.eqb (List.length (s_text cfg l ++ tail)) (List.length T))%bool else Ok true) in
      check good ;;
      if negb want then Ok (List.length (s_text cfg l ++ tail), JNull)
      else let* v := string_value cfg (existsb escb l || tail_esc tail post)%bool (firstn (List.length (s_text cfg l ++ tail)) T) in Ok (List.length (s_text cfg l ++ tail), v)) = Ok (n, v) <->
      s_text cfg l ++ tail <> [] /\ s_follow cfg post /\ n = List.length (s_text cfg l ++ tail) /\
      v = if want then JStr (if (existsb escb l || tail_esc tail post)%bool then string_unesc cfg (s_text cfg l ++ tail) else s_text cfg l ++ tail) else JNull)).
    { intros l tail post (HT & HF & _). cbn [negb andb]. set (B := s_text cfg l ++ tail) in *. assert (HT2 : T = B ++ post) by (unfold B; rewrite <- app_assoc; exact HT).
      destruct (Nat.eqb_spec (List.length B) 0) as [H0|H0]; cbn [negb].
      { split; [discriminate|]. intros [H _]. exfalso. apply H. destruct B; [reflexivity|discriminate]. }
      assert (HBn : B <> []) by (intros HB; rewrite HB in H0; cbn in H0; lia).
      assert (HG : (if (Nat.ltb (List.length B) 1 || s_exact cfg)%bool then let* c := rd T (List.length B) in Ok (ceq c " " || Nat.eqb (List.length B) (List.length T))%bool else Ok true)
         = Ok (if s_exact cfg then match post with [] => true | x :: _ => ceq x " " end else true)).
      { replace (Nat.ltb (List.length B) 1) with false by (symmetry; apply Nat.ltb_ge; lia). cbn [orb]. destruct (s_exact cfg); [|reflexivity]. rewrite HT2. destruct post as [|x post].
        - rewrite app_nil_r. unfold rd. replace (nth_error B (List.length B)) with (@None ascii) by (symmetry; apply nth_error_None; lia).
          rewrite Nat.eqb_refl. cbn [bind]. rewrite orb_true_r. reflexivity.
        - rewrite rd_app1 by reflexivity. cbn [bind]. rewrite app_length. replace (Nat.eqb _ _) with false; [rewrite orb_false_r; reflexivity|]. symmetry. apply Nat.eqb_neq. cbn [List.length]. lia. }
      rewrite HG. clear HG. cbn [bind].
      assert (HFo : (if s_exact cfg then match post with [] => true | x :: _ => ceq x " " end else true) = true <-> s_follow cfg post).
      { unfold s_follow. destruct (s_exact cfg); [|intuition discriminate]. destruct post as [|x post]; [intuition|]. rewrite ceq_true. split.
        - intros -> _. right. exists post. reflexivity.
        - intros H. destruct (H eq_refl) as [HH|[r HH]]; [discriminate|]. injection HH as -> _. reflexivity. }
      destruct (if s_exact cfg then _ else true).
      2: { split; [discriminate|]. intros (_ & H & _). apply HFo in H. discriminate. }
      replace (firstn (List.length B) T) with B by (rewrite HT2; symmetry; apply firstn_app_exact).
      destruct (Nat.eq_dec n (List.length B)) as [Hnn|Hnn].
      2: { split; [|tauto]. destruct want; cbn [negb]; [|intros H; injection H; congruence]. intros H. apply bind_ok in H. destruct H as (w & _ & H). injection H. congruence. }
      assert (HNl : ~ In NUL B) by (intros Hi; apply HN; rewrite Hnn, HT2, firstn_app_exact; exact Hi).
      rewrite (value_no_nul cfg _ _ HNl). cbn [bind]. pose proof (proj1 HFo eq_refl) as HFF. destruct want; cbn [negb].
      - split; [intros H; injection H as <- <-; auto|intros (_ & _ & -> & ->); reflexivity].
      - split; [intros H; injection H as <- <-; auto|intros (_ & _ & -> & ->); reflexivity]. }
    split.
    - destruct (string_scan (S (List.length T)) e cfg T 0 false false) as [z| |] eqn:HS; try discriminate. rewrite (HP1 z _ _ _ eq_refl HB0). cbn [bind]. intros H. apply (HV _ _ _ HB0) in H. exists l0, tail0, post0. tauto.
    - intros (l & tail & post & HB & H). rewrite (HP2 _ _ _ HB) by (destruct H as (_ & _ & <- & _); exact HC). cbn [bind]. apply (HV _ _ _ HB). exact H. }
  assert (HQT : forall (P : Prop) l post, (T = [s_qb cfg] ++ s_text cfg l ++ [s_qe cfg] ++ post) <-> c = s_qb cfg /\ t = s_text cfg l ++ [s_qe cfg] ++ post).
  { intros _ l post. unfold T. cbn [app]. split; [intros [= -> ->]; auto|intros [-> ->]; reflexivity]. }
  assert (HNQ : forall r, T <> s_qb cfg :: r <-> (c <> s_qb cfg \/ t <> r)) by (intros r; unfold T; split; [intros H; destruct (ascii_dec c (s_qb cfg)) as [->|]; [right; intros ->; apply H; reflexivity|left; assumption]|intros [H|H] HH; injection HH; intros; congruence]).
  (* quoted *)
  assert (HcaseQ : c = s_qb cfg -> s_quote cfg <> QNone -> forall X, (X = Ok (n, v) <->
     exists l post, t = s_text cfg l ++ [s_qe cfg] ++ post /\ Forall (si_ok cfg true) l /\ (s_escdbl cfg = true -> forall c q, post = c :: q -> c <> s_qe cfg) /\ s_follow cfg post /\
      n = 2 + List.length (s_text cfg l) /\ v = if want then JStr (map (si_val cfg) l) else JNull) ->
     (X = Ok (n, v) <-> (exists l post, s_quoted_g cfg T l post /\ n = 2 + List.length (s_text cfg l) /\ v = if want then JStr (map (si_val cfg) l) else JNull) \/
   (exists l tail post, s_plain_g cfg T l tail post /\ n = List.length (s_text cfg l ++ tail) /\
     v = if want then JStr (if (existsb escb l || tail_esc tail post)%bool then string_unesc cfg (s_text cfg l ++ tail) else s_text cfg l ++ tail) else JNull))).
  { intros Hc Hm X HX. rewrite HX. split.
    - intros (l & post & H1 & H2 & H3 & H4 & H5 & H6). left. exists l, post. split; [|auto]. split; [exact Hm|]. split; [apply (HQT True); auto|]. auto.
    - intros [(l & post & (_ & H1 & H2 & H3 & H4) & H5 & H6)|(l & tail & post & ([H|[_ H]] & _) & _)].
      + apply (HQT True) in H1. exists l, post. tauto.
      + congruence.
      + exfalso. apply (H t). unfold T. rewrite Hc. reflexivity. }
  assert (HcaseP : (s_quote cfg = QNone \/ s_quote cfg = QAuto /\ c <> s_qb cfg) -> forall X, (X = Ok (n, v) <->
     exists l tail post, plain_body cfg T l tail post /\ s_text cfg l ++ tail <> [] /\ s_follow cfg post /\
      n = List.length (s_text cfg l ++ tail) /\
     v = if want then JStr (if (existsb escb l || tail_esc tail post)%bool then string_unesc cfg (s_text cfg l ++ tail) else s_text cfg l ++ tail) else JNull) ->
     (X = Ok (n, v) <-> (exists l post, s_quoted_g cfg T l post /\ n = 2 + List.length (s_text cfg l) /\ v = if want then JStr (map (si_val cfg) l) else JNull) \/
   (exists l tail post, s_plain_g cfg T l tail post /\ n = List.length (s_text cfg l ++ tail) /\
     v = if want then JStr (if (existsb escb l || tail_esc tail post)%bool then string_unesc cfg (s_text cfg l ++ tail) else s_text cfg l ++ tail) else JNull))).
  { intros Hm X HX. rewrite HX. split.
    - intros (l & tail & post & (H1 & H2 & H3) & H4 & H5 & H6 & H7). right. exists l, tail, post. split; [|auto]. split; [|auto 8].
      destruct Hm as [Hm|[Hm Hc]]; [left; exact Hm|right; split; [exact Hm|]]. intros r. apply HNQ. left. exact Hc.
    - intros [(l & post & (Hx & H1 & _) & _)|(l & tail & post & (_ & H1 & H2 & H3 & H4 & H5) & H6 & H7)].
      + apply (HQT True) in H1. exfalso. destruct Hm as [Hm|[Hm Hc]]; [congruence|]. tauto.
      + exists l, tail, post. split; [split; [exact H1|split; [exact H2|exact H4]]|]. auto. }
  destruct (s_quote cfg) eqn:EM; cbn [bind].
  - destruct (ceq c (s_qb cfg)) eqn:Ec.
    + apply ceq_true in Ec. apply HcaseQ; [exact Ec|discriminate|exact HoutQ].
    + apply ceq_false in Ec. apply HcaseP; [auto|exact HoutP].
  - apply HcaseP; [auto|exact HoutP].
  - destruct (ceq c (s_qb cfg)) eqn:Ec; cbn [bind].
    + apply ceq_true in Ec. apply HcaseQ; [exact Ec|discriminate|exact HoutQ].
    + apply ceq_false in Ec. split; [discriminate|]. intros [(l & post & (_ & H1 & _) & _)|(l & tail & post & ([H|[H _]] & _) & _)].
      * apply (HQT True) in H1. tauto.
      * congruence.
      * congruence.
Qed.

Lemma items_plain_eq cfg l : forall r, s_text cfg (SPlain l :: r) = l :: s_text cfg r.
Proof. reflexivity. Qed.
Lemma collapse_items cfg tail : s_qe cfg <> "\"%char -> s_qe cfg <> NUL -> (tail = [] \/ tail = L "\" /\ s_escbs cfg = true) ->
  forall n l, List.length l <= n -> Forall (si_ok cfg false) l -> string_unesc cfg (s_text cfg l ++ tail) = s_collapsed cfg l.
Proof.
  intros Hq Hn HT. induction n as [|n IH]; intros l Hl HF.
  { destruct l; [|cbn in Hl; lia]. cbn. destruct HT as [->|[-> HB]]; [reflexivity|]. cbn. unfold esc_here. rewrite HB. cbn. rewrite orb_true_r. reflexivity. }
  destruct l as [|x l]; [apply IH; [cbn; lia|constructor]|]. cbn [List.length] in Hl.
  pose proof (Forall_inv HF) as Hx. apply Forall_inv_tail in HF. pose proof (IH l ltac:(lia) HF) as IH1.
  destruct x as [c|c|].
  - destruct Hx as (H1 & H2 & H3).
    assert (HBS : (ceq c "\" && s_escbs cfg)%bool = false) by (apply andb_false_iff; destruct (s_escbs cfg); [left; apply ceq_false; auto|right; reflexivity]).
    assert (HNX : forall d w, s_text cfg l ++ tail = d :: w -> (ceq c (s_qe cfg) && ceq d (s_qe cfg) && s_escdbl cfg)%bool = true -> exists l', l = SPlain d :: l').
    { intros d w HE HX. apply andb_true_iff in HX. destruct HX as [HX _]. apply andb_true_iff in HX. destruct HX as [_ HX]. apply ceq_true in HX. subst d.
      destruct l as [|y l]; [cbn in HE; destruct HT as [->|[-> _]]; [discriminate|injection HE as HE _; congruence]|]. destruct y as [d|d|]; cbn in HE.
      - injection HE as -> _. eexists. reflexivity.
      - injection HE as HE _. congruence.
      - apply Forall_inv in HF. destruct HF as (HF & _). discriminate. }
    rewrite items_plain_eq. cbn [app]. rewrite unesc_cons. destruct (s_text cfg l ++ tail) as [|d w] eqn:E.
    + destruct l as [|y l]; [|destruct y; discriminate]. cbn [s_collapsed si_val]. unfold esc_here. rewrite HBS, orb_false_r.
      destruct (ceq c (s_qe cfg) && ceq NUL (s_qe cfg) && s_escdbl cfg)%bool eqn:EX; [|reflexivity].
      apply andb_true_iff in EX. destruct EX as [EX _]. apply andb_true_iff in EX. destruct EX as [_ EX]. apply ceq_true in EX. congruence.
    + unfold esc_here. rewrite HBS, orb_false_r. destruct (ceq c (s_qe cfg) && ceq d (s_qe cfg) && s_escdbl cfg)%bool eqn:EX.
      * destruct (HNX d w eq_refl EX) as (l' & ->). cbn [s_collapsed]. replace (s_escdbl cfg && ceq c (s_qe cfg) && ceq d (s_qe cfg))%bool with true by (rewrite <- EX; destruct (s_escdbl cfg), (ceq c (s_qe cfg)), (ceq d (s_qe cfg)); reflexivity).
        rewrite items_plain_eq in E. cbn [app] in E. injection E as <-. rewrite IH; [|cbn [List.length] in Hl; lia|apply Forall_inv_tail in HF; exact HF]. f_equal.
        apply andb_true_iff in EX. destruct EX as [EX _]. apply andb_true_iff in EX. destruct EX as [E1 E2]. apply ceq_true in E1, E2. congruence.
      * assert (HC : s_collapsed cfg (SPlain c :: l) = c :: s_collapsed cfg l).
        { cbn [s_collapsed]. destruct l as [|[d'|d'|] l]; try reflexivity. rewrite items_plain_eq in E. cbn [app] in E. injection E as -> _. replace (s_escdbl cfg && ceq c (s_qe cfg) && ceq d (s_qe cfg))%bool with false; [reflexivity|]. rewrite <- EX. destruct (s_escdbl cfg), (ceq c (s_qe cfg)), (ceq d (s_qe cfg)); reflexivity. }
        rewrite HC, <- IH1. reflexivity.
  - destruct Hx as (H1 & H2 & _). change (s_text cfg (SEsc c :: l)) with ("\"%char :: c :: s_text cfg l). cbn [app]. rewrite unesc_cons. replace (esc_here cfg "\" c) with true; [rewrite IH1; reflexivity|].
    unfold esc_here. rewrite ceq_refl, H1. cbn. symmetry. apply orb_true_r.
  - destruct Hx as (HX & _). discriminate.
Qed.

Theorem string_exact2 e cfg want t n v : s_qe cfg <> "\"%char -> s_qe cfg <> NUL -> s_usable e n t ->
  (parseString e cfg want t = Ok (n, v) <->
   (exists l post, s_quoted_g cfg t l post /\ n = 2 + List.length (s_text cfg l) /\ v = if want then JStr (map (si_val cfg) l) else JNull) \/
   (exists l tail post, s_plain_g cfg t l tail post /\ n = List.length (s_text cfg l ++ tail) /\ v = if want then JStr (s_plain_value cfg l tail post) else JNull)).
Proof.
  intros Hq Hn [HN HC]. rewrite string_exact; [|exact Hq|exact Hn|].
  2: { split; [exact HN|]. apply Forall_forall. intros c Hc Hs. specialize (HC Hs). eapply Forall_forall in HC; [exact HC|exact Hc]. }
  assert (HV : forall l tail post, s_plain_g cfg t l tail post ->
    (if (existsb escb l || tail_esc tail post)%bool then string_unesc cfg (s_text cfg l ++ tail) else s_text cfg l ++ tail) = s_plain_value cfg l tail post).
  { intros l tail post (HU & HT & HF & Hne & HS & HFo). unfold s_plain_value. fold (tail_esc tail post).
    assert (HTl : tail = [] \/ tail = L "\" /\ s_escbs cfg = true) by (destruct HS as [[-> _]|(-> & HB & _)]; auto).
    destruct (existsb is_escape l) eqn:Eb; cbn [orb]; [eapply collapse_items; eauto|].
    destruct (tail_esc tail post); [eapply collapse_items; eauto|]. rewrite plain_items by exact Eb. reflexivity. }
  split; (intros [H|(l & tail & post & H1 & H2 & H3)]; [left; exact H|right]); exists l, tail, post; (split; [exact H1|]); (split; [exact H2|]); rewrite H3, (HV _ _ _ H1); reflexivity.
Qed.
