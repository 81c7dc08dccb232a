(** * FieldFacts8: checkpoint-lea. *)
From Verif Require Import Base Time Parsers BaseFacts FieldSpec FieldSpec2 SafetySpec FieldFacts FieldFacts2 FieldFacts3 FieldFacts4 IntFacts DateFacts FieldFacts6.
From Coq Require Import ZifyBool ZifyNat ZifyN.

Lemma scan_stop P (a b : text) : Forall (fun c => P c = true) a -> (forall c r, b = c :: r -> P c = false) -> scan P (a ++ b) = List.length a.
Proof. apply scan_run. Qed.
Lemma blank_scan b : blank_only b -> Forall (fun c => ceq " " c = true) b.
Proof. apply Forall_impl. intros c ->. apply ceq_refl. Qed.
Lemma scan_blank b : Forall (fun c => ceq " " c = true) b -> blank_only b.
Proof. apply Forall_impl. intros c H. apply ceq_true in H. auto. Qed.
Lemma notin_scan x l : ~ In x l -> Forall (fun c => negb (ceq c x) = true) l.
Proof. intros H. apply Forall_forall. intros c Hc. apply negb_true_iff, ceq_false. intros ->. auto. Qed.
Lemma scan_notin x l : Forall (fun c => negb (ceq c x) = true) l -> ~ In x l.
Proof. intros H Hi. eapply Forall_forall in H; [|exact Hi]. rewrite ceq_refl in H. discriminate. Qed.

Definition lea_add (want : bool) (v : json) (fs : list lea_field) : json :=
  if want then
    match fs with [] => v | _ => JObj (fold_left (fun o m => obj_add o (fst m) (snd m)) (map lea_member fs) (match v with JObj o => o | _ => [] end)) end
  else v.

Lemma lea_add_cons want v f fs : lea_add want v (f :: fs) =
  lea_add want (if want then JObj (obj_add (match v with JObj o => o | _ => [] end) (cstr (l_name f)) (JStr (cstr (l_value f)))) else v) fs.
Proof. unfold lea_add. destruct want; [|reflexivity]. destruct fs; reflexivity. Qed.

Lemma lea_loop_exact term want : forall fuel u nf v k w, List.length u < fuel ->
  lea_loop fuel term want u nf v = Ok (k, w) <->
  exists fs b post, Forall (lea_ok term) fs /\ u = List.concat (map lea_text fs) ++ b ++ post /\ blank_only b /\
    ((post = [] /\ (nf = 0 -> fs = [] -> b = [])) \/ (exists r, post = term :: r /\ term <> " "%char)) /\
    k = List.length (List.concat (map lea_text fs) ++ b) /\ w = lea_add want v fs.
Proof.
  induction fuel as [|fuel IH]; intros u nf v k w Hf; [lia|].
  cbn [lea_loop]. destruct u as [|c0 u0].
  { split.
    - intros [= <- <-]. exists [], [], []. split; [constructor|]. split; [reflexivity|]. split; [constructor|]. split; [left; auto|]. split; [reflexivity|]. unfold lea_add. destruct want; reflexivity.
    - intros (fs & b & post & HF & HU & HB & HE & -> & ->). destruct fs as [|f fs].
      + cbn in HU. destruct b; [|discriminate]. unfold lea_add. destruct want; reflexivity.
      + exfalso. apply (f_equal (@List.length _)) in HU. cbn [map List.concat] in HU. unfold lea_text in HU. rewrite !app_length in HU. cbn [L list_ascii_of_string List.length] in HU. lia. }
  assert (Hne : c0 :: u0 <> []) by discriminate. remember (c0 :: u0) as u eqn:Hu. clear Hu c0 u0.
  destruct (run_split (ceq " ") u) as (b1 & u1 & HU & Hb1 & Hu1 & Hs). rewrite Hs.
  replace (skipn (List.length b1) u) with u1 by (rewrite HU; symmetry; apply skipn_app_exact).
  (* blanks are taken maximally *)
  assert (HM : forall b x, blank_only b -> u = b ++ x -> (forall c r, x = c :: r -> c <> " "%char) -> b = b1 /\ x = u1).
  { intros b x HB HX Hx. assert (HSl : List.length b1 = List.length b).
    { rewrite <- Hs, HX. apply scan_stop; [apply blank_scan; exact HB|]. intros c r Hc. apply ceq_false. intros HH. apply (Hx c r Hc). auto. }
    rewrite HU in HX. apply app_len_inj in HX; [|exact HSl]. destruct HX; auto. }
  assert (HMf : forall f fs x, Forall (lea_ok term) (f :: fs) -> u = List.concat (map lea_text (f :: fs)) ++ x ->
     b1 = l_b1 f /\ u1 = l_name f ++ L ":" ++ l_b2 f ++ l_value f ++ L ";" ++ List.concat (map lea_text fs) ++ x).
  { intros f fs x HF HX. apply Forall_inv in HF. destruct HF as (G1 & _ & _ & _ & G5 & _).
    destruct (HM (l_b1 f) (l_name f ++ L ":" ++ l_b2 f ++ l_value f ++ L ";" ++ List.concat (map lea_text fs) ++ x)) as [-> ->]; [exact G1| | |auto].
    - rewrite HX. cbn [map List.concat]. unfold lea_text. rewrite <- !app_assoc. reflexivity.
    - intros c r Hc. rewrite app_assoc in Hc. destruct (l_name f ++ L ":") as [|x0 y0] eqn:En; [destruct (l_name f); discriminate|]. injection Hc as -> _. eapply G5. reflexivity. }
  destruct u1 as [|c u1].
  { destruct (Nat.eqb_spec nf 0) as [Hn|Hn].
    - split; [discriminate|]. intros (fs & b & post & HF & HX & HB & HE & -> & ->). exfalso. destruct fs as [|f fs].
      + cbn [map List.concat app] in HX. destruct HE as [[-> HE]|(r & -> & HE)].
        * rewrite (HE Hn eq_refl) in HX. apply Hne. exact HX.
        * destruct (HM b (term :: r) HB HX) as [_ HH]; [intros c q [= <- _]; exact HE|]. discriminate.
      + destruct (HMf f fs _ HF HX) as [_ HH]. destruct (l_name f); discriminate.
    - split.
      + intros [= <- <-]. exists [], b1, []. split; [constructor|]. split; [exact HU|]. split; [apply scan_blank; exact Hb1|]. split; [left; split; [reflexivity|intros; congruence]|]. split; [reflexivity|]. unfold lea_add; destruct want; reflexivity.
      + intros (fs & b & post & HF & HX & HB & HE & -> & ->). destruct fs as [|f fs].
        * cbn [map List.concat app] in *. destruct (HM b post HB HX) as [-> HH].
          { intros c r ->. destruct HE as [[HE _]|(q & [= -> _] & HE)]; [discriminate|exact HE]. }
          unfold lea_add; destruct want; reflexivity.
        * destruct (HMf f fs _ HF HX) as [_ HH]. destruct (l_name f); discriminate. }
  assert (Hcb : c <> " "%char) by (intros ->; specialize (Hu1 _ _ eq_refl); rewrite ceq_refl in Hu1; discriminate).
  destruct (ceq c term) eqn:Ec.
  { apply ceq_true in Ec. subst c. split.
    - intros [= <- <-]. exists [], b1, (term :: u1). split; [constructor|]. split; [exact HU|]. split; [apply scan_blank; exact Hb1|]. split; [right; eauto|]. split; [reflexivity|]. unfold lea_add; destruct want; reflexivity.
    - intros (fs & b & post & HF & HX & HB & HE & -> & ->). destruct fs as [|f fs].
      + cbn [map List.concat app] in *. destruct (HM b post HB HX) as [-> HH].
        { intros c r ->. destruct HE as [[HE _]|(q & [= -> _] & HE)]; [discriminate|exact HE]. }
        unfold lea_add; destruct want; reflexivity.
      + exfalso. destruct (HMf f fs _ HF HX) as [_ HH]. apply Forall_inv in HF. destruct HF as (_ & _ & _ & _ & G5 & _).
        rewrite app_assoc in HH. destruct (l_name f ++ L ":") as [|x0 y0] eqn:En; [destruct (l_name f); discriminate|]. injection HH as HH _. destruct (G5 x0 y0 eq_refl). congruence. }
  apply ceq_false in Ec. remember (c :: u1) as u2 eqn:Hu2.
  assert (HFS : (exists fs b post, Forall (lea_ok term) fs /\ u = List.concat (map lea_text fs) ++ b ++ post /\ blank_only b /\
    ((post = [] /\ (nf = 0 -> fs = [] -> b = [])) \/ (exists r, post = term :: r /\ term <> " "%char)) /\
    k = List.length (List.concat (map lea_text fs) ++ b) /\ w = lea_add want v fs) <->
   exists f fs b post, lea_ok term f /\ l_b1 f = b1 /\ u2 = l_name f ++ L ":" ++ l_b2 f ++ l_value f ++ L ";" ++ List.concat (map lea_text fs) ++ b ++ post /\
    Forall (lea_ok term) fs /\ blank_only b /\ ((post = [] /\ (S nf = 0 -> fs = [] -> b = [])) \/ (exists r, post = term :: r /\ term <> " "%char)) /\
    k = List.length b1 + (S (List.length (l_name f)) + List.length (l_b2 f) + S (List.length (l_value f))) + List.length (List.concat (map lea_text fs) ++ b) /\
    w = lea_add want (if want then JObj (obj_add (match v with JObj o => o | _ => [] end) (cstr (l_name f)) (JStr (cstr (l_value f)))) else v) fs).
  { split.
    - intros (fs & b & post & HF & HX & HB & HE & Hk & Hw). destruct fs as [|f fs].
      + exfalso. cbn [map List.concat app] in *. destruct HE as [[-> HE]|(q & -> & HE)].
        * rewrite app_nil_r in HX. rewrite HX in HU. assert (In c b) by (rewrite HU, Hu2; apply in_or_app; right; left; reflexivity). eapply Forall_forall in HB; [|exact H]. congruence.
        * destruct (HM b (term :: q) HB HX) as [-> HH]; [intros x r [= <- _]; exact HE|]. rewrite Hu2 in HH. injection HH as HH _. congruence.
      + destruct (HMf f fs _ HF HX) as [Hb Hx]. exists f, fs, b, post. split; [apply Forall_inv in HF; exact HF|]. split; [auto|]. split; [exact Hx|]. split; [apply Forall_inv_tail in HF; exact HF|]. split; [exact HB|].
        split; [destruct HE as [[HE _]|HE]; [left; split; [exact HE|intros; lia]|right; exact HE]|]. split; [|rewrite Hw; apply lea_add_cons].
        rewrite Hk, Hb. cbn [map List.concat]. unfold lea_text at 1. rewrite !app_length. cbn [L list_ascii_of_string List.length]. lia.
    - intros (f & fs & b & post & Hf0 & Hb & Hx & HF & HB & HE & Hk & Hw). exists (f :: fs), b, post.
      split; [constructor; assumption|]. split; [rewrite HU, Hx, <- Hb; cbn [map List.concat]; unfold lea_text at 2; rewrite <- !app_assoc; reflexivity|]. split; [exact HB|].
      split; [destruct HE as [[HE _]|HE]; [left; split; [exact HE|intros; discriminate]|right; exact HE]|]. split; [|rewrite Hw; symmetry; apply lea_add_cons].
      rewrite Hk, <- Hb. cbn [map List.concat]. unfold lea_text at 2. rewrite !app_length. cbn [L list_ascii_of_string List.length]. lia. }
  rewrite HFS. clear HFS.
  destruct (run_split (fun c => negb (ceq c ":")) u2) as (nm & u3 & HU2 & Hnm & Hu3 & Hs2). rewrite Hs2.
  assert (HN : forall name x, ~ In ":"%char name -> u2 = name ++ L ":" ++ x -> name = nm /\ u3 = L ":" ++ x).
  { intros name x Hi HX. assert (HSl : List.length nm = List.length name).
    { rewrite <- Hs2, HX. apply scan_stop; [apply notin_scan; exact Hi|]. intros z r [= <- _]. reflexivity. }
    rewrite HU2 in HX. apply app_len_inj in HX; [|exact HSl]. destruct HX; auto. }
  destruct u3 as [|cc u3].
  { rewrite HU2, app_nil_r. destruct (Nat.ltb_spec (List.length nm + 1) (List.length nm)) as [HH|_]; [lia|]. split; [discriminate|].
    intros (f & fs & b & post & Hf0 & Hb & Hx & _). exfalso. destruct Hf0 as (_ & G2 & _). destruct (HN _ _ G2 (eq_trans (eq_trans HU2 (app_nil_r nm)) Hx)) as [_ HH]. discriminate. }
  assert (Hcc : cc = ":"%char) by (specialize (Hu3 _ _ eq_refl); apply negb_false_iff, ceq_true in Hu3; exact Hu3). subst cc.
  assert (Hlen2 : List.length u2 = List.length nm + S (List.length u3)) by (rewrite HU2, app_length; reflexivity).
  destruct (Nat.ltb_spec (List.length nm + 1) (List.length u2)) as [Hl|Hl].
  2: { split; [discriminate|]. intros (f & fs & b & post & Hf0 & Hb & Hx & _). exfalso. destruct Hf0 as (_ & G2 & _). destruct (HN _ _ G2 Hx) as [_ HH].
       destruct u3 as [|z u3]; [|cbn [List.length] in Hlen2; lia]. injection HH as HH. apply (f_equal (@List.length _)) in HH. rewrite !app_length in HH. cbn [L list_ascii_of_string List.length] in HH. lia. }
  replace (rd u2 (List.length nm)) with (Ok ":"%char) by (rewrite HU2; symmetry; apply rd_app1; reflexivity). cbn [bind]. rewrite ceq_refl.
  replace (skipn (S (List.length nm)) u2) with u3.
  2: { rewrite HU2. replace (nm ++ ":"%char :: u3) with ((nm ++ L ":") ++ u3) by (rewrite <- app_assoc; reflexivity).
       replace (S (List.length nm)) with (List.length (nm ++ L ":")) by (rewrite app_length; cbn; lia). symmetry. apply skipn_app_exact. }
  destruct (run_split (ceq " ") u3) as (b2 & u4 & HU3 & Hb2 & Hu4 & Hs3). rewrite Hs3.
  replace (skipn (List.length b2) u3) with u4 by (rewrite HU3; symmetry; apply skipn_app_exact).
  destruct (run_split (fun c => negb (ceq c ";")) u4) as (vl & u5 & HU4 & Hvl & Hu5 & Hs4). rewrite Hs4.
  assert (HV : forall f x, lea_ok term f -> u2 = l_name f ++ L ":" ++ l_b2 f ++ l_value f ++ L ";" ++ x -> l_name f = nm /\ l_b2 f = b2 /\ l_value f = vl /\ u5 = L ";" ++ x).
  { intros f x (_ & G2 & G3 & G4 & _ & G6) HX. destruct (HN _ _ G2 HX) as [-> HH]. injection HH as HH. split; [reflexivity|].
    assert (HSl : List.length b2 = List.length (l_b2 f)).
    { rewrite <- Hs3, HH. apply scan_stop; [apply blank_scan; exact G3|]. intros z r Hz. apply ceq_false. intros HZ. subst z. destruct (l_value f) as [|y vv]; [discriminate|]. injection Hz as -> _. apply (G6 _ _ eq_refl). reflexivity. }
    rewrite HU3 in HH. apply app_len_inj in HH; [|exact HSl]. destruct HH as [<- HH]. split; [reflexivity|].
    assert (HSl2 : List.length vl = List.length (l_value f)).
    { rewrite <- Hs4, HH. apply scan_stop; [apply notin_scan; exact G4|]. intros z r [= <- _]. reflexivity. }
    rewrite HU4 in HH. apply app_len_inj in HH; [|exact HSl2]. destruct HH; auto. }
  assert (Hlen4 : List.length u4 = List.length vl + List.length u5) by (rewrite HU4, app_length; reflexivity).
  destruct u5 as [|sc u5].
  { destruct (Nat.ltb_spec (List.length u4) (List.length vl + 1)) as [_|HH]; [|cbn [List.length] in Hlen4; lia]. cbn [negb]. split; [discriminate|].
    intros (f & fs & b & post & Hf0 & Hb & Hx & _). exfalso. destruct (HV f _ Hf0 Hx) as (_ & _ & _ & HH). discriminate. }
  assert (Hsc : sc = ";"%char) by (specialize (Hu5 _ _ eq_refl); apply negb_false_iff, ceq_true in Hu5; exact Hu5). subst sc.
  destruct (Nat.ltb_spec (List.length u4) (List.length vl + 1)) as [HH|_]; [cbn [List.length] in Hlen4; lia|]. cbn [negb].
  replace (rd u4 (List.length vl)) with (Ok ";"%char) by (rewrite HU4; symmetry; apply rd_app1; reflexivity). cbn [bind]. rewrite ceq_refl.
  replace (skipn (S (List.length vl)) u4) with u5.
  2: { rewrite HU4. replace (vl ++ ";"%char :: u5) with ((vl ++ L ";") ++ u5) by (rewrite <- app_assoc; reflexivity).
       replace (S (List.length vl)) with (List.length (vl ++ L ";")) by (rewrite app_length; cbn; lia). symmetry. apply skipn_app_exact. }
  replace (firstn (List.length nm) u2) with nm by (rewrite HU2; symmetry; apply firstn_app_exact).
  replace (firstn (List.length vl) u4) with vl by (rewrite HU4; symmetry; apply firstn_app_exact).
  set (v' := if want then _ else v). 
  assert (Hfuel : List.length u5 < fuel).
  { rewrite HU, app_length, Hlen2, HU3, app_length, Hlen4 in Hf. cbn [List.length] in Hf. lia. }
  assert (HC1 : forall c0 r, nm ++ L ":" = c0 :: r -> c0 <> " "%char /\ c0 <> term).
  { intros c1 r H1. rewrite Hu2 in HU2. destruct nm as [|x nm]; [injection H1 as <- _|injection H1 as -> _]; injection HU2 as HU2 _; rewrite <- HU2; auto. }
  assert (HC2 : forall c0 r, vl = c0 :: r -> c0 <> " "%char).
  { intros c1 r ->. rewrite HU4 in Hu4. specialize (Hu4 _ _ eq_refl). apply ceq_false in Hu4. congruence. }
  split.
  - intros H. apply bind_ok in H. destruct H as ([k' w'] & HL & H). injection H as <- <-.
    apply IH in HL; [|exact Hfuel]. destruct HL as (fs & b & post & HF & HX & HB & HE & -> & ->).
    exists {| l_b1 := b1; l_name := nm; l_b2 := b2; l_value := vl |}, fs, b, post. cbn [l_b1 l_name l_b2 l_value].
    split. { unfold lea_ok; cbn [l_b1 l_name l_b2 l_value]. split; [apply scan_blank; exact Hb1|]. split; [apply scan_notin; exact Hnm|]. split; [apply scan_blank; exact Hb2|]. split; [apply scan_notin; exact Hvl|]. auto. }
    split; [reflexivity|]. split; [rewrite HU2, HU3, HU4, HX; reflexivity|]. split; [exact HF|]. split; [exact HB|]. split; [exact HE|]. split; reflexivity.
  - intros (f & fs & b & post & Hf0 & Hb & Hx & HF & HB & HE & -> & ->). destruct (HV f _ Hf0 Hx) as (-> & -> & -> & HX). injection HX as HX. fold v'.
    assert (HL : lea_loop fuel term want u5 (S nf) v' = Ok (List.length (List.concat (map lea_text fs) ++ b), lea_add want v' fs)).
    { apply IH; [exact Hfuel|]. exists fs, b, post. auto 8. }
    rewrite HL. cbn [bind]. reflexivity.
Qed.

Lemma lea_exact term want t n v : parseLEA term want t = Ok (n, v) <->
  exists fs pre post, lea_g term fs t pre post /\ n = List.length pre /\
    v = match fs with [] => JNull | _ => if want then stored_in_order (map lea_member fs) else JNull end.
Proof.
  unfold parseLEA. rewrite lea_loop_exact by lia. unfold lea_g, lea_add, stored_in_order. split.
  - intros (fs & b & post & HF & HX & HB & HE & -> & ->). exists fs, (List.concat (map lea_text fs) ++ b), post. split.
    + split; [exact HF|]. split; [rewrite <- app_assoc; exact HX|]. exists b. split; [reflexivity|]. split; [exact HB|]. destruct HE as [[H1 H2]|HE]; auto.
    + split; [reflexivity|]. destruct fs, want; reflexivity.
  - intros (fs & pre & post & (HF & HX & b & -> & HB & HE) & -> & ->). exists fs, b, post. split; [exact HF|]. split; [rewrite app_assoc; exact HX|]. split; [exact HB|]. split; [destruct HE as [[H1 H2]|HE]; auto|]. split; [reflexivity|]. destruct fs, want; reflexivity.
Qed.
