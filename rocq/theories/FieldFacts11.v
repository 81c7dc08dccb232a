(** * FieldFacts11: cef. *)
From Verif Require Import Base Time Parsers BaseFacts FieldSpec FieldSpec2 SafetySpec FieldFacts FieldFacts2 FieldFacts3 FieldFacts4 IntFacts DateFacts FieldFacts6 FieldFacts7 FieldFacts8 FieldFacts10.
From Coq Require Import ZifyBool ZifyNat ZifyN.

Lemma hdr_scan_run : forall h u, Forall hc_ok h -> cef_hdr_scan (hdr_text h ++ L "|" ++ u) = Ok (List.length (hdr_text h)).
Proof.
  induction h as [|x h IH]; intros u HF; [reflexivity|]. pose proof (Forall_inv HF) as Hx. apply Forall_inv_tail in HF. specialize (IH u HF).
  cbn [hdr_text flat_map]. change (flat_map hc_text h) with (hdr_text h). rewrite <- app_assoc. destruct x as [c|c]; cbn [hc_text app]; cbn [cef_hdr_scan].
  - destruct Hx as [H1 H2]. apply ceq_false in H1, H2. rewrite H1, H2. rewrite IH. reflexivity.
  - change (ceq "\" "|") with false. change (ceq "\" "\") with true. cbv iota.
    assert (HX : (ceq c "\" || ceq c "|")%bool = true) by (destruct Hx as [->| ->]; reflexivity). rewrite HX, IH. reflexivity.
Qed.
Lemma hdr_copy_run : forall h, Forall hc_ok h -> cef_hdr_copy (hdr_text h) = hdr_val h.
Proof.
  induction h as [|x h IH]; intros HF; [reflexivity|]. pose proof (Forall_inv HF) as Hx. apply Forall_inv_tail in HF. specialize (IH HF).
  cbn [hdr_text flat_map hdr_val map]. change (flat_map hc_text h) with (hdr_text h). change (map hc_val h) with (hdr_val h). destruct x as [c|c]; cbn [hc_text app hc_val]; cbn [cef_hdr_copy].
  - destruct Hx as [H1 H2]. apply ceq_false in H2. rewrite H2, IH. reflexivity.
  - change (ceq "\" "\") with true. cbv iota. rewrite IH. reflexivity.
Qed.
Lemma hdr_scan_sound : forall n u k, List.length u <= n -> cef_hdr_scan u = Ok k -> exists h r, Forall hc_ok h /\ u = hdr_text h ++ r /\ k = List.length (hdr_text h) /\ (r = [] \/ exists r', r = L "|" ++ r').
Proof.
  induction n as [|n IH]; intros u k Hl H.
  { destruct u; [|cbn in Hl; lia]. injection H as <-. exists [], []. auto. }
  destruct u as [|c u]; [injection H as <-; exists [], []; auto|]. cbn [cef_hdr_scan] in H. cbn [List.length] in Hl. destruct (ceq c "|") eqn:E1.
  { apply ceq_true in E1. subst c. injection H as <-. exists [], ("|"%char :: u). split; [constructor|]. split; [reflexivity|]. split; [reflexivity|]. right. exists u. reflexivity. }
  destruct (ceq c "\") eqn:E2.
  - apply ceq_true in E2. subst c. destruct u as [|d u]; [discriminate|]. destruct (ceq d "\" || ceq d "|")%bool eqn:E3; [|discriminate].
    apply bind_ok in H. destruct H as (k' & HS & H). injection H as <-. cbn [List.length] in Hl. destruct (IH u k') as (h & r & H1 & H2 & H3 & H4); [lia|exact HS|].
    exists (HEsc d :: h), r. split; [constructor; [|exact H1]; apply orb_true_iff in E3; rewrite !ceq_true in E3; cbn; tauto|]. split; [rewrite H2; reflexivity|]. split; [rewrite H3; reflexivity|exact H4].
  - apply bind_ok in H. destruct H as (k' & HS & H). injection H as <-. destruct (IH u k') as (h & r & H1 & H2 & H3 & H4); [lia|exact HS|]. apply ceq_false in E1, E2.
    exists (HPlain c :: h), r. split; [constructor; [cbn; auto|exact H1]|]. split; [rewrite H2; reflexivity|]. split; [rewrite H3; reflexivity|exact H4].
Qed.
Lemma hdr_field e u v r : cefGetHdrField e u = Ok (v, r) <->
  exists h, Forall hc_ok h /\ (asserts_on e = true -> h <> []) /\ u = hdr_text h ++ L "|" ++ r /\ v = hdr_val h.
Proof.
  unfold cefGetHdrField. split.
  - intros H. apply bind_ok in H. destruct H as (c & Hc & H). destruct (asserts_on e && ceq c "|")%bool eqn:EA; [discriminate|].
    apply bind_ok in H. destruct H as (k & HS & H). apply bind_ok in H. destruct H as (d & Hd & H). destruct (ceq d "|") eqn:Ed; [|discriminate]. apply ceq_true in Ed. subst d.
    assert (HI : forall (x y : text * text), Ok x = Ok y -> x = y) by (intros x y [= ->]; reflexivity). apply HI, pair_equal_spec in H. destruct H as [<- <-].
    destruct (hdr_scan_sound (List.length u) u k (le_n _) HS) as (h & r & H1 & H2 & H3 & H4). subst k.
    destruct H4 as [->|(r' & ->)].
    + exfalso. rewrite app_nil_r in H2. rewrite H2 in Hd. unfold rd in Hd. replace (nth_error (hdr_text h) (List.length (hdr_text h))) with (@None ascii) in Hd by (symmetry; apply nth_error_None; lia). rewrite Nat.eqb_refl in Hd. discriminate.
    + exists h. split; [exact H1|]. split.
      { intros Ha ->. rewrite H2 in Hc. cbn in Hc. injection Hc as <-. rewrite Ha in EA. discriminate. }
      rewrite H2. split.
      * replace (S (List.length (hdr_text h))) with (List.length (hdr_text h) + 1) by lia. rewrite skipn_at. reflexivity.
      * rewrite firstn_app_exact. apply hdr_copy_run. exact H1.
  - intros (h & H1 & H2 & -> & ->). rewrite (hdr_scan_run h r H1).
    assert (HR : exists c, rd (hdr_text h ++ L "|" ++ r) 0 = Ok c /\ (asserts_on e && ceq c "|")%bool = false).
    { destruct h as [|x h].
      - exists "|"%char. split; [reflexivity|]. destruct (asserts_on e); [exfalso; apply (H2 eq_refl); reflexivity|reflexivity].
      - pose proof (Forall_inv H1) as Hx. destruct x as [c|c]; cbn [hdr_text flat_map hc_text app].
        + exists c. split; [reflexivity|]. destruct Hx as [Hx _]. apply ceq_false in Hx. rewrite Hx. apply andb_false_r.
        + exists "\"%char. split; [reflexivity|]. apply andb_false_r. }
    destruct HR as (c & HR1 & HR2). rewrite HR1. cbn [bind]. rewrite HR2. cbn [bind].
    assert (HR3 : rd (hdr_text h ++ L "|" ++ r) (List.length (hdr_text h)) = Ok "|"%char) by (apply rd_app1; reflexivity). rewrite HR3. cbn [bind]. rewrite ceq_refl.
    rewrite firstn_app_exact, hdr_copy_run by exact H1. replace (S (List.length (hdr_text h))) with (List.length (hdr_text h) + 1) by lia. rewrite skipn_at. reflexivity.
Qed.

Definition vtext (l : list cef_vc) : text := flat_map vc_text l.
Lemma val_items : forall l u i last sp, Forall vc_ok l -> exists last' sp', cef_val_loop (vtext l ++ u) i last sp false = cef_val_loop u (i + List.length (vtext l)) last' sp' false.
Proof.
  induction l as [|x l IH]; intros u i last sp HF.
  { exists last, sp. cbn. rewrite Nat.add_0_r. reflexivity. }
  pose proof (Forall_inv HF) as Hx. apply Forall_inv_tail in HF. cbn [vtext flat_map]. change (flat_map vc_text l) with (vtext l). rewrite <- app_assoc.
  destruct x as [c|c]; cbn [vc_text app]; cbn [cef_val_loop].
  - destruct Hx as [H1 H2]. apply ceq_false in H1, H2. rewrite H1, H2.
    destruct (ceq c " "); [|destruct sp]; (edestruct (IH u (S i)) as (l' & s' & HI); [exact HF|]); exists l', s'; rewrite HI; f_equal; cbn [List.length]; lia.
  - change (ceq "\" "=") with false. change (ceq "\" "\") with true. cbv iota. cbn [cef_val_loop].
    replace (ceq c "=" || ceq c "\" || ceq c "r" || ceq c "n" || ceq c "/")%bool with true.
    2: { symmetry. cbn in Hx. rewrite !orb_true_iff, !ceq_true. repeat (destruct Hx as [Hx|Hx]; [subst c; tauto|]). destruct Hx. }
    edestruct (IH u (S (S i))) as (l' & s' & HI); [exact HF|]. exists l', s'. rewrite HI. f_equal. cbn [List.length]. lia.
Qed.
Definition name_ch (c : ascii) : Prop := In c (L "abcdefghijklmnopqrstuvwxyzABCDEFGHIJKLMNOPQRSTUVWXYZ0123456789_.").
Lemma name_chars : forall c, (isalnum c || ceq c "_" || ceq c ".")%bool = mem (L "abcdefghijklmnopqrstuvwxyzABCDEFGHIJKLMNOPQRSTUVWXYZ0123456789_.") c. Proof. sweep. Qed.
Lemma name_safe : forall c, implb (isalnum c || ceq c "_" || ceq c ".")%bool (negb (ceq c "=") && negb (ceq c "\") && negb (ceq c " ") && negb (ceq c NUL))%bool = true. Proof. sweep. Qed.
Lemma name_ch_facts c : name_ch c -> (isalnum c || ceq c "_" || ceq c ".")%bool = true /\ ceq c "=" = false /\ ceq c "\" = false /\ ceq c " " = false /\ ceq c NUL = false.
Proof.
  intros H. assert (H1 : (isalnum c || ceq c "_" || ceq c ".")%bool = true) by (rewrite name_chars; apply mem_In; exact H). split; [exact H1|].
  pose proof (name_safe c) as G. rewrite H1 in G. cbn [implb] in G. rewrite !andb_true_iff, !negb_true_iff in G. tauto.
Qed.
Lemma name_run : forall nm u, Forall name_ch nm -> cef_name (nm ++ L "=" ++ u) = Ok (List.length nm).
Proof.
  induction nm as [|c nm IH]; intros u HF; [reflexivity|]. pose proof (Forall_inv HF) as Hx. apply Forall_inv_tail in HF. cbn [app cef_name].
  apply name_ch_facts in Hx. destruct Hx as (H1 & H2 & _). rewrite H1, H2, IH by exact HF. reflexivity.
Qed.
Lemma val_name : forall nm u i last, Forall name_ch nm -> cef_val_loop (nm ++ L "=" ++ u) i last false false = Ok (i + List.length nm, last).
Proof.
  induction nm as [|c nm IH]; intros u i last HF; [cbn; rewrite Nat.add_0_r; reflexivity|]. pose proof (Forall_inv HF) as Hx. apply Forall_inv_tail in HF. cbn [app cef_val_loop].
  apply name_ch_facts in Hx. destruct Hx as (_ & H2 & H3 & H4 & _). rewrite H2, H3, H4, IH by exact HF. cbn [List.length]. f_equal. f_equal. lia.
Qed.
Lemma unesc_run : forall l u, Forall vc_ok l -> cef_unesc (List.length (vtext l)) (vtext l ++ u) = map (fun x => Some (vc_val x)) l.
Proof.
  induction l as [|x l IH]; intros u HF; [reflexivity|]. pose proof (Forall_inv HF) as Hx. apply Forall_inv_tail in HF. specialize (IH u HF).
  cbn [vtext flat_map map]. change (flat_map vc_text l) with (vtext l). rewrite <- app_assoc. destruct x as [c|c]; cbn [vc_text app List.length vc_val]; cbn [cef_unesc].
  - destruct Hx as [H1 H2]. apply ceq_false in H2. rewrite H2. f_equal. exact IH.
  - change (ceq "\" "\") with true. cbv iota. cbn [Nat.sub]. rewrite Nat.sub_0_r. f_equal; [|exact IH].
    cbn in Hx. repeat (destruct Hx as [Hx|Hx]; [subst c; reflexivity|]). destruct Hx.
Qed.
Lemma cstr_init_run : forall l, ~ In NUL l -> cstr_init (map Some l) = Ok l.
Proof.
  induction l as [|c l IH]; intros H; [reflexivity|]. cbn [map cstr_init]. replace (ceq c NUL) with false by (symmetry; apply ceq_false; intros ->; apply H; left; reflexivity).
  rewrite IH; [reflexivity|]. intros Hi. apply H. right. exact Hi.
Qed.
Lemma vals_no_nul l : Forall vc_ok l -> ~ In NUL (vtext l) -> ~ In NUL (map vc_val l).
Proof.
  induction l as [|x l IH]; intros HF HN Hi; [exact Hi|]. pose proof (Forall_inv HF) as Hx. apply Forall_inv_tail in HF. cbn [vtext flat_map] in HN. change (flat_map vc_text l) with (vtext l) in HN.
  cbn [map In] in Hi. destruct Hi as [Hi|Hi]; [|apply IH; auto; intros Hj; apply HN; apply in_or_app; right; exact Hj].
  destruct x as [c|c]; cbn [vc_val vc_text] in *; [apply HN; left; exact Hi|]. cbn in Hx. repeat (destruct Hx as [Hx|Hx]; [subst c; discriminate|]). destruct Hx.
Qed.

Lemma sp_scan b c u : blank_only b -> c <> " "%char -> scan (ceq " ") (b ++ c :: u) = List.length b.
Proof. intros HB Hc. apply scan_run; [apply blank_scan; exact HB|]. intros x r [= <- _]. apply ceq_false. congruence. Qed.

Lemma joined_hd (x : cef_extension) exts : exists w, joined (L " ") (map ext_text (x :: exts)) = fst x ++ L "=" ++ w.
Proof. destruct exts as [|y exts]; cbn [map joined]; unfold ext_text at 1; eexists; rewrite <- ?app_assoc; reflexivity. Qed.
Lemma ext_run store : forall exts fuel a b o, 
  List.length exts < fuel -> Forall ext_ok exts -> blank_only b -> (exts = [] -> b = []) -> ~ In NUL (joined (L " ") (map ext_text exts)) ->
  0 < List.length a ->
  cef_ext fuel (a ++ b ++ joined (L " ") (map ext_text exts)) (List.length a) store o =
  Ok (if store then fold_left (fun o m => obj_add o (fst m) (snd m)) (map ext_member exts) o else o).
Proof.
  induction exts as [|[nm l] exts IH]; intros fuel a b o Hf HF HB Hb HN Ha; (destruct fuel as [|fuel]; [cbn in Hf; lia|]); cbn [cef_ext].
  { rewrite (Hb eq_refl). cbn [map joined app]. rewrite app_nil_r, Nat.ltb_irrefl. cbn [negb]. destruct store; reflexivity. }
  pose proof (Forall_inv HF) as (Hn1 & Hn2 & Hv). apply Forall_inv_tail in HF. cbn [fst snd] in *.
  assert (HJ : joined (L " ") (map ext_text (@cons cef_extension (nm, l) exts)) = nm ++ L "=" ++ vtext l ++ match exts with [] => [] | _ => L " " ++ joined (L " ") (map ext_text exts) end).
  { assert (HE : ext_text (nm, l) = nm ++ L "=" ++ vtext l) by reflexivity. destruct exts as [|x exts]; cbn [map joined]; rewrite HE; [rewrite app_nil_r; reflexivity|].
    rewrite <- !app_assoc. reflexivity. }
  rewrite HJ in HN |- *. set (rest := match exts with [] => [] | _ => _ end) in *.
  destruct nm as [|n0 nm]; [congruence|]. pose proof (Forall_inv Hn2) as Hn0. apply name_ch_facts in Hn0. destruct Hn0 as (G1 & G2 & G3 & G4 & G5). set (name := n0 :: nm) in *.
  set (T := a ++ b ++ name ++ L "=" ++ vtext l ++ rest).
  assert (HLn : List.length (L "=") = 1) by reflexivity.
  destruct (Nat.ltb_spec (List.length a) (List.length T)) as [_|HH]; [|unfold T in HH; rewrite !app_length in HH; cbn [List.length name] in HH; unfold name in HH; cbn [List.length] in HH; lia]. cbn [negb].
  assert (HSc : scan (ceq " ") (skipn (List.length a) T) = List.length b).
  { unfold T. rewrite skipn_app_exact. unfold name. cbn [app]. apply sp_scan; [exact HB|]. apply ceq_false. exact G4. }
  rewrite HSc. rewrite <- app_length.
  assert (HT1 : T = (a ++ b) ++ name ++ L "=" ++ vtext l ++ rest) by (unfold T; rewrite <- !app_assoc; reflexivity).
  replace (skipn (List.length (a ++ b)) T) with (name ++ L "=" ++ vtext l ++ rest) by (rewrite HT1; symmetry; apply skipn_app_exact).
  rewrite name_run by exact Hn2. cbn [bind]. rewrite <- (app_length (a ++ b) name).
  assert (HT2 : T = ((a ++ b) ++ name) ++ L "=" ++ vtext l ++ rest) by (rewrite HT1, <- !app_assoc; reflexivity).
  replace (rd T (List.length ((a ++ b) ++ name))) with (Ok "="%char) by (rewrite HT2; symmetry; apply rd_app1; reflexivity). cbn [bind]. rewrite ceq_refl.
  destruct (Nat.ltb_spec (List.length ((a ++ b) ++ name)) (List.length T)) as [_|HH]; [|rewrite HT2, (app_length ((a ++ b) ++ name) (L "=" ++ vtext l ++ rest)), (app_length (L "=")) in HH; rewrite HLn in HH; lia].
  assert (HT3 : T = (((a ++ b) ++ name) ++ L "=") ++ vtext l ++ rest) by (rewrite HT2, <- !app_assoc; reflexivity).
  set (p := ((a ++ b) ++ name) ++ L "=") in *.
  replace (S (List.length ((a ++ b) ++ name))) with (List.length p) by (unfold p; rewrite (app_length _ (L "=")), HLn; lia).
  assert (HLv : exists j, cefParseExtensionValue T (List.length p) = Ok j /\ j = List.length (p ++ vtext l)).
  { unfold cefParseExtensionValue. replace (skipn (List.length p) T) with (vtext l ++ rest) by (rewrite HT3; symmetry; apply skipn_app_exact). destruct (val_items l rest (List.length p) 0 false Hv) as (last & sp & HV). rewrite HV, <- app_length.
    unfold rest in *. destruct exts as [|x exts].
    - cbn [cef_val_loop bind]. rewrite HT3, app_nil_r, Nat.ltb_irrefl. eexists. split; reflexivity.
    - pose proof (Forall_inv HF) as (Hm1 & Hm2 & _).
      destruct (joined_hd x exts) as [w HJ2]. rewrite HJ2. destruct (fst x) as [|m0 nm2]; [congruence|]. pose proof (Forall_inv Hm2) as Hm0. apply name_ch_facts in Hm0. destruct Hm0 as (_ & K2 & K3 & K4 & _).
      assert (HVV : cef_val_loop (L " " ++ (m0 :: nm2) ++ L "=" ++ w) (List.length (p ++ vtext l)) last sp false = Ok (List.length (p ++ vtext l) + 1 + List.length (m0 :: nm2), S (List.length (p ++ vtext l)))).
      { cbn [L list_ascii_of_string app cef_val_loop]. change (ceq " " "=") with false. change (ceq " " "\") with false. change (ceq " " " ") with true. cbv iota. rewrite K2, K3, K4.
        change ("="%char :: w) with (L "=" ++ w). rewrite val_name by (apply Forall_inv_tail in Hm2; exact Hm2). cbn [List.length]. f_equal. f_equal. lia. }
      rewrite HVV. cbn [bind]. cbn [Nat.eqb]. rewrite HT3, HJ2.
      match goal with |- context [Nat.ltb ?x ?y] => replace (Nat.ltb x y) with true end.
      2: { symmetry. apply Nat.ltb_lt. rewrite !app_length. cbn [L list_ascii_of_string List.length]. lia. }
      eexists. split; [reflexivity|]. lia. }
  destruct HLv as (j & HLv & Hj). rewrite HLv. cbn [bind]. subst j.
  replace (List.length (p ++ vtext l) - List.length p) with (List.length (vtext l)) by (rewrite app_length; lia).
  replace (skipn (List.length p) T) with (vtext l ++ rest) by (rewrite HT3; symmetry; apply skipn_app_exact).
  rewrite unesc_run by exact Hv.
  assert (HNv : ~ In NUL (vtext l)) by (intros Hi; apply HN; apply in_or_app; right; apply in_or_app; right; apply in_or_app; left; exact Hi).
  rewrite <- (map_map vc_val Some). rewrite cstr_init_run by (apply vals_no_nul; [exact Hv|exact HNv]). cbn [bind].
  replace (sub T (List.length (a ++ b)) (List.length name)) with name by (rewrite HT1; symmetry; apply sub_at; reflexivity).
  assert (HNn : ~ In NUL name) by (intros Hi; apply HN; apply in_or_app; left; exact Hi). rewrite (cstr_id name HNn).
  (* the remaining extensions *)
  assert (HREST : forall o', cef_ext fuel T (S (List.length (p ++ vtext l))) store o' = Ok (if store then fold_left (fun o m => obj_add o (fst m) (snd m)) (map ext_member exts) o' else o')).
  { intros o'. unfold rest in *. destruct exts as [|x exts].
    - destruct fuel as [|fuel]; [cbn in Hf; lia|]. cbn [cef_ext]. rewrite HT3, app_nil_r. destruct (Nat.ltb_spec (S (List.length (p ++ vtext l))) (List.length (p ++ vtext l))) as [HH|_]; [lia|]. cbn [negb]. destruct store; reflexivity.
    - replace T with ((p ++ vtext l ++ L " ") ++ [] ++ joined (L " ") (map ext_text (x :: exts))) by (rewrite HT3, <- !app_assoc; reflexivity).
      replace (S (List.length (p ++ vtext l))) with (List.length (p ++ vtext l ++ L " ")) by (rewrite !app_length; cbn [L list_ascii_of_string List.length]; lia).
      apply IH; [cbn [List.length] in *; lia|exact HF|constructor|intros; discriminate| |].
      + intros Hi. apply HN. apply in_or_app. right. apply in_or_app. right. apply in_or_app. right. apply in_or_app. right. exact Hi.
      + rewrite !app_length. cbn [L list_ascii_of_string List.length]. lia. }
  destruct store; cbn [bind]; rewrite HREST; reflexivity.
Qed.

Lemma pfx6 t : 6 <= List.length t -> (rdall t 0 [ceq "C"; ceq "E"; ceq "F"; ceq ":"; ceq "0"; ceq "|"] = Ok tt <-> exists u, t = L "CEF:0|" ++ u).
Proof.
  intros Hl. split.
  - intros H. do 6 (destruct t as [|? t]; [cbn in Hl; lia|]). unfold rd in H. cbn [rdall rd nth_error bind] in H. exists t.
    repeat match type of H with (if ?b then _ else _) = _ => let E := fresh "E" in destruct b eqn:E; [|discriminate]; apply ceq_true in E end. subst. reflexivity.
  - intros (u & ->). reflexivity.
Qed.

Lemma skip_blanks u : exists b r, blank_only b /\ u = b ++ r /\ skipn (scan (ceq " ") u) u = r /\ (forall c w, r = c :: w -> c <> " "%char).
Proof.
  induction u as [|c u IH].
  { exists [], []. repeat split; try constructor. intros c w H. discriminate. }
  cbn [scan]. destruct (ceq " " c) eqn:E.
  - apply ceq_true in E. subst c. destruct IH as (b & r & H1 & H2 & H3 & H4). exists (" "%char :: b), r. split; [constructor; [reflexivity|exact H1]|]. split; [rewrite H2; reflexivity|]. split; [exact H3|exact H4].
  - exists [], (c :: u). repeat split; [constructor|]. intros c' w [= <- <-]. apply ceq_false in E. congruence.
Qed.

Definition six (hs : list (list cef_hc)) : text := flat_map (fun h => hdr_text h ++ L "|") hs.

Lemma cef_header_sound e want t n v : parseCEF e want t = Ok (n, v) ->
  n = List.length t /\ exists hs h ext, cef_header e hs h /\ t = h ++ ext /\
    if want then exists o, v = cef_value hs (JObj o) else v = JNull.
Proof.
  unfold parseCEF. intros H. destruct (Nat.ltb_spec (List.length t) 17) as [HH|HL]; [discriminate|]. cbn [negb] in H.
  apply bind_ok in H. destruct H as ([] & HP & H). apply pfx6 in HP; [|lia]. destruct HP as (u & ->).
  change (skipn 6 (L "CEF:0|" ++ u)) with u in H.
  apply bind_ok in H. destruct H as ([v1 u1] & H1 & H). apply bind_ok in H. destruct H as ([v2 u2] & H2 & H). apply bind_ok in H. destruct H as ([v3 u3] & H3 & H).
  apply bind_ok in H. destruct H as ([v4 u4] & H4 & H). apply bind_ok in H. destruct H as ([v5 u5] & H5 & H). apply bind_ok in H. destruct H as ([v6 u6] & H6 & H).
  apply hdr_field in H1, H2, H3, H4, H5, H6.
  destruct H1 as (h1 & A1 & B1 & C1 & D1). destruct H2 as (h2 & A2 & B2 & C2 & D2). destruct H3 as (h3 & A3 & B3 & C3 & D3).
  destruct H4 as (h4 & A4 & B4 & C4 & D4). destruct H5 as (h5 & A5 & B5 & C5 & D5). destruct H6 as (h6 & A6 & B6 & C6 & D6).
  apply bind_ok in H. destruct H as (o0 & _ & H).
  assert (HX : n = List.length (L "CEF:0|" ++ u) /\ if want then exists o, v = cef_value [h1;h2;h3;h4;h5;h6] (JObj o) else v = JNull).
  { destruct want; cbn [negb] in H.
    - apply bind_ok in H. destruct H as (o & _ & H). injection H as <- <-. split; [reflexivity|]. exists o. subst. reflexivity.
    - injection H as <- <-. split; reflexivity. }
  destruct HX as [HX1 HX2]. split; [exact HX1|]. exists [h1;h2;h3;h4;h5;h6], (L "CEF:0|" ++ six [h1;h2;h3;h4;h5;h6]), u6.
  split.
  { split; [reflexivity|]. split; [repeat (apply Forall_cons; [assumption|]); constructor|]. split; [intros Ha; repeat (apply Forall_cons; [auto|]); constructor|reflexivity]. }
  split; [|exact HX2]. subst. unfold six. cbn [flat_map]. rewrite app_nil_r, <- !app_assoc. reflexivity.
Qed.

Lemma cef_wellformed e want hs h b exts : cef_header e hs h -> blank_only b -> Forall ext_ok exts -> ~ In NUL (joined (L " ") (map ext_text exts)) ->
  let t := h ++ b ++ joined (L " ") (map ext_text exts) in
  17 <= List.length t ->
  parseCEF e want t = Ok (List.length t, if want then cef_value hs (stored_in_order (map ext_member exts)) else JNull).
Proof.
  intros (G1 & G2 & G3 & ->) HB HF HN. do 6 (destruct hs as [|? hs]; [discriminate|]). destruct hs; [|discriminate]. clear G1.
  set (E := joined (L " ") (map ext_text exts)) in *. set (H0 := L "CEF:0|" ++ _). intros t HL.
  assert (HLE : List.length exts < S (List.length t)).
  { unfold t, E. clear - HF. assert (HK : List.length exts <= List.length (joined (L " ") (map ext_text exts))).
    { induction exts as [|x exts IH]; [cbn; lia|]. apply Forall_inv_tail in HF. specialize (IH HF). destruct (joined_hd x exts) as [w HW]. destruct exts as [|y exts].
      - rewrite HW, !app_length. cbn [L list_ascii_of_string List.length]. lia.
      - cbn [map joined] in *. rewrite !app_length in *. cbn [L list_ascii_of_string List.length] in *. unfold ext_text at 1. rewrite app_length. lia. }
    rewrite !app_length. lia. }
  assert (HSP : skipn (scan (ceq " ") (b ++ E)) (b ++ E) = E).
  { assert (HS : scan (ceq " ") (b ++ E) = List.length b).
    { apply scan_run; [apply blank_scan; exact HB|]. unfold E. destruct exts as [|x exts]; [intros c r; cbn; discriminate|]. destruct (joined_hd x exts) as [w HW]. rewrite HW.
      pose proof (Forall_inv HF) as (Hm1 & Hm2 & _). destruct (fst x) as [|m0 nm2]; [congruence|]. intros c r [= <- _]. apply Forall_inv in Hm2. apply name_ch_facts in Hm2. apply ceq_false. intros Heq. subst m0. destruct Hm2 as (_ & _ & _ & K & _). discriminate. }
    rewrite HS. apply skipn_app_exact. }
  unfold parseCEF. destruct (Nat.ltb_spec (List.length t) 17) as [HH|_]; [lia|]. cbn [negb].
  assert (HT : t = L "CEF:0|" ++ skipn 6 t) by reflexivity.
  replace (rdall t 0 [ceq "C"; ceq "E"; ceq "F"; ceq ":"; ceq "0"; ceq "|"]) with (Ok tt) by (symmetry; apply pfx6; [lia|eexists; exact HT]). cbn [bind].
  assert (HS6 : skipn 6 t = six [l; l0; l1; l2; l3; l4] ++ b ++ E) by reflexivity. rewrite HS6. unfold six. cbn [flat_map]. rewrite app_nil_r, <- !app_assoc.
  assert (HG : forall h r, Forall hc_ok h -> (asserts_on e = true -> h <> []) -> cefGetHdrField e (hdr_text h ++ L "|" ++ r) = Ok (hdr_val h, r)).
  { intros h r K1 K2. apply hdr_field. exists h. auto. }
  assert (HG3 : forall h, In h [l;l0;l1;l2;l3;l4] -> asserts_on e = true -> h <> []). { intros h Hi Ha. specialize (G3 Ha). rewrite Forall_forall in G3. auto. }
  assert (HG2 : forall h, In h [l;l0;l1;l2;l3;l4] -> Forall hc_ok h). { rewrite Forall_forall in G2. exact G2. }
  do 6 (rewrite HG by (first [apply HG2|apply HG3]; cbn; auto 10); cbn [bind]).
  rewrite HSP.
  replace (List.length t - List.length E) with (List.length (H0 ++ b)) by (unfold t; rewrite !app_length; lia).
  assert (HT2 : t = (H0 ++ b) ++ [] ++ E) by (unfold t; rewrite <- app_assoc; reflexivity).
  assert (HRUN : forall st, cef_ext (S (List.length t)) t (List.length (H0 ++ b)) st [] = Ok (if st then fold_left (fun o m => obj_add o (fst m) (snd m)) (map ext_member exts) [] else [])).
  { intros st. rewrite HT2 at 2. apply ext_run; [exact HLE|exact HF|constructor|reflexivity|exact HN|]. unfold H0. rewrite !app_length. cbn [L list_ascii_of_string List.length]. lia. }
  rewrite !HRUN. cbn [bind]. destruct want; reflexivity.
Qed.
