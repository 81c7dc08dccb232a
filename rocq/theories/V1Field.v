(** * V1Field: the v1 field parsers: hazards, positions. *)
From Verif Require Import Base BaseFacts Time Parsers FieldSpec SafetySpec FieldFacts FieldFacts2 FieldFacts3 FieldFacts4 IntFacts ParserSafe ParserSafe2 V1 V1FieldSpec.
From Coq Require Import ZifyBool ZifyNat ZifyN.

Lemma post_vtext U t r : post U (len_ok t) r -> post U (len_ok t) (vtext t r).
Proof. intros H. unfold vtext. eapply post_bind; [exact H|]. intros [n v] Hn. exact Hn. Qed.

(** ** name-value-list *)
Lemma v1_nv_safe U : forall f u o, List.length u < f -> post U (fun _ => True) (v1_nv f u o).
Proof.
  induction f as [|f IH]; intros u o Hf; [lia|]. cbn [v1_nv]. destruct u as [|c u]; [exact I|]. remember (c :: u) as w.
  pose proof (scan_le isValidNameChar w) as HS. remember (scan isValidNameChar w) as n. apply post_check. intros Hn.
  eapply post_bind; [apply post_rd; lia|]. intros d Hd. apply post_check. intros Ed. apply ceq_true in Ed. subst d.
  apply rd_lt in Hd; [|discriminate]. apply IH. rewrite !skipn_length. lia.
Qed.
Lemma v1_nvlist_safe U t : post U (len_ok t) (v1_nvlist t).
Proof. unfold v1_nvlist. eapply post_bind; [apply v1_nv_safe; lia|]. intros o _. cbn. unfold len_ok. cbn. lia. Qed.

(** ** checkpoint-lea *)
Lemma v1_lea_safe U : forall f u nf v, List.length u < f -> post U (len_ok u) (v1_lea f u nf v).
Proof.
  induction f as [|f IH]; intros u nf v Hf; [lia|]. cbn [v1_lea]. destruct u as [|c u]; [cbn; unfold len_ok; cbn; lia|]. remember (c :: u) as w. clear Heqw c u.
  pose proof (scan_le (ceq " ") w) as HS. remember (scan (ceq " ") w) as s. clear Heqs.
  destruct (skipn s w) as [|c u1] eqn:E1; [destruct (Nat.eqb nf 0); [exact I|cbn; unfold len_ok; cbn; lia]|].
  pose proof (f_equal (@List.length _) E1) as HL. rewrite skipn_length in HL. remember (c :: u1) as z. clear Heqz c u1 E1.
  pose proof (scan_le (fun c => negb (ceq c ":")) z) as HS1. remember (scan (fun c => negb (ceq c ":")) z) as ln. clear Heqln.
  apply post_check. intros H1.
  pose proof (scan_le (ceq " ") (skipn (S ln) z)) as HS2. rewrite skipn_length in HS2. remember (scan (ceq " ") (skipn (S ln) z)) as s2. clear Heqs2.
  set (u3 := skipn s2 (skipn (S ln) z)).
  assert (HL3 : List.length u3 = List.length z - S ln - s2) by (subst u3; rewrite !skipn_length; reflexivity).
  clearbody u3.
  pose proof (scan_le (fun c => negb (ceq c ";")) u3) as HS3. remember (scan (fun c => negb (ceq c ";")) u3) as lv. clear Heqlv.
  apply post_check. intros H3.
  eapply post_bind; [apply IH; rewrite skipn_length; lia|]. intros [k v'] Hk. unfold len_ok in *. cbn [fst post] in *. rewrite skipn_length in Hk. lia.
Qed.

(** ** cef *)
Lemma v1_cef_val_safe U start : forall u i last had esc, start <= i -> (last = 0 \/ start < last <= i) -> (had = true -> start < i) ->
  post U (fun r => i <= fst r <= i + List.length u /\ (snd r = 0 \/ start < snd r <= fst r)) (v1_cef_val u i last had esc).
Proof.
  induction u as [|c u IH]; intros i last had esc H0 H1 H2; cbn [v1_cef_val]; [cbn; lia|].
  assert (HC : forall last' had' esc', (last' = 0 \/ start < last' <= S i) ->
    post U (fun r => i <= fst r <= i + List.length (c :: u) /\ (snd r = 0 \/ start < snd r <= fst r)) (v1_cef_val u (S i) last' had' esc')).
  { intros last' had' esc' Hl. eapply post_mono; [apply IH; lia|]. intros [a b]. cbn. lia. }
  destruct esc; [apply post_check; intros _; apply HC; lia|]. destruct (ceq c "="); [cbn; lia|].
  destruct (ceq c "\"); [apply HC; lia|]. destruct (ceq c " "); [apply HC; lia|].
  destruct had; apply HC; [specialize (H2 eq_refl)|]; lia.
Qed.
Lemma v1_cef_unesc_init : forall f u i last had j l len, List.length u < f ->
  v1_cef_val u i last had false = Ok (j, l) -> ~ ends_bs u -> len <= j - i -> Forall (fun o => o <> None) (v1_cef_unesc len u).
Proof.
  induction f as [|f IH]; intros u i last had j l len Hf; [lia|].
  destruct len as [|len]; [constructor|]. destruct u as [|c u]; [constructor|]. cbn [v1_cef_val v1_cef_unesc List.length] in *.
  destruct (ceq c "=") eqn:E1.
  { intros [= <- <-] _ H. lia. }
  destruct (ceq c "\") eqn:E2.
  - destruct u as [|d u]; cbn [v1_cef_val List.length] in *.
    { intros _ Hn. exfalso. apply Hn. exists []. apply ceq_true in E2. subst. reflexivity. }
    destruct (ceq d "=" || ceq d "\" || ceq d "r" || ceq d "n")%bool eqn:Ed; [|discriminate].
    intros Hv Hn Hlen. constructor.
    + intros H. destruct (ceq d "="); [discriminate|]. destruct (ceq d "n"); [discriminate|]. destruct (ceq d "r"); [discriminate|].
      destruct (ceq d "\"); [discriminate|]. cbn in Ed. discriminate.
    + eapply IH; [lia|exact Hv| |lia]. intros [a Ha]. apply Hn. exists (c :: d :: a). rewrite Ha. reflexivity.
  - intros Hv Hn Hlen. constructor; [discriminate|].
    assert (Hn' : ~ ends_bs u) by (intros [a Ha]; apply Hn; exists (c :: a); rewrite Ha; reflexivity).
    destruct (ceq c " "); [eapply IH; [lia|exact Hv|auto|lia]|]. destruct had; (eapply IH; [lia|exact Hv|auto|lia]).
Qed.
Lemma ends_bs_dec t : ends_bs t \/ ~ ends_bs t.
Proof.
  destruct (rev t) as [|c r] eqn:Er.
  - right. intros [a Ha]. rewrite Ha, rev_app_distr in Er. discriminate.
  - destruct (ascii_dec c "\"%char) as [->|Hne].
    + left. exists (rev r). rewrite <- (rev_involutive t), Er. reflexivity.
    + right. intros [a Ha]. rewrite Ha, rev_app_distr in Er. cbn in Er. injection Er as <- _. congruence.
Qed.
Lemma v1_cef_ext_safe (U : ub -> Prop) t store : (ends_bs t -> store = true -> U UninitRead) ->
  forall f i o, List.length t - i < f ->
  post U (fun _ => True) (v1_cef_ext f t i store o).
Proof.
  intros HU. induction f as [|f IH]; intros i o Hf; [lia|]. cbn [v1_cef_ext].
  destruct (Nat.ltb_spec i (List.length t)) as [Hl|Hl]; cbn [negb]; [|exact I]. cbv zeta.
  pose proof (scan_le (ceq " ") (skipn i t)) as HS. rewrite skipn_length in HS.
  set (i1 := i + scan (ceq " ") (skipn i t)) in *. assert (H1 : i <= i1 <= List.length t) by (subst i1; lia). clearbody i1. clear HS.
  eapply post_bind; [apply cef_name_safe|]. intros ln Hln. cbv beta in Hln. rewrite skipn_length in Hln.
  apply post_check. intros Hn.
  eapply post_bind; [apply post_rd; lia|]. intros c Hc. apply post_check. intros Ec. 
  eapply post_bind; [apply post_eq, (v1_cef_val_safe U (S (i1 + ln))); [lia|left; reflexivity|discriminate]|].
  intros [j last] [[Hj Hlast] HV]. cbn [fst snd] in Hj, Hlast. rewrite skipn_length in Hj.
  set (j' := if Nat.ltb j (List.length t) then if Nat.eqb last 0 then j else last - 1 else j).
  assert (Hj' : S (i1 + ln) <= j' <= j).
  { subst j'. destruct (Nat.ltb_spec j (List.length t)); [destruct (Nat.eqb_spec last 0)|]; lia. }
  clearbody j'. eapply post_bind.
  { instantiate (1 := fun _ => True). destruct store; [|exact I].
    destruct (ends_bs_dec t) as [D|D].
    - assert (HUU : U UninitRead) by auto.
      match goal with |- context [cstr_init ?b0] => remember b0 as b end. clear -HUU.
      assert (HB : post U (fun _ => True) (cstr_init b)).
      { induction b as [|[c|] b IH]; cbn [cstr_init]; [exact I| |exact HUU]. destruct (ceq c NUL); [exact I|].
        eapply post_bind; [exact IH|]. intros r _. exact I. }
      eapply post_bind; [exact HB|]. intros r _. exact I.
    - eapply post_bind; [apply cstr_init_safe|intros v _; exact I].
      eapply (v1_cef_unesc_init (S (List.length (skipn (S (i1 + ln)) t)))); [lia|exact HV| |lia].
      intros H. apply D. eapply ends_bs_skipn; exact H. }
  intros o' _. apply IH. lia.
Qed.
Lemma v1_cef_safe (U : ub -> Prop) e t : (asserts_on e = true -> U AssertFail) -> (ends_bs t -> U UninitRead) ->
  post U (fun r => 17 <= List.length t) (v1_cef e t).
Proof.
  intros HA HU. unfold v1_cef. apply post_check. intros Hl.
  eapply post_bind; [apply rdall_safe; cbn; lia|]. intros _ _.
  eapply post_bind; [apply cef_hdr_safe, HA|]. intros [vendor u1] _.
  eapply post_bind; [apply cef_hdr_safe, HA|]. intros [product u2] _.
  eapply post_bind; [apply cef_hdr_safe, HA|]. intros [version u3] _.
  eapply post_bind; [apply cef_hdr_safe, HA|]. intros [sigid u4] _.
  eapply post_bind; [apply cef_hdr_safe, HA|]. intros [name u5] _.
  eapply post_bind; [apply cef_hdr_safe, HA|]. intros [severity u6] _.
  cbv zeta.
  eapply post_bind; [apply v1_cef_ext_safe; [discriminate|lia]|]. intros _ _.
  eapply post_bind; [apply v1_cef_ext_safe; [auto|lia]|]. intros ext _. cbn. lia.
Qed.

(** ** The others *)
Lemma v1_number_safe U t : post U (len_ok t) (v1_number t).
Proof. unfold v1_number. apply post_check. intros _. cbn. apply scan_le. Qed.
Lemma v1_float_safe U t : post U (len_ok t) (v1_float t).
Proof.
  unfold v1_float. eapply post_bind; [apply post_rd; lia|]. intros c Hc. cbv zeta.
  assert (H : (if ceq c "-" then 1 else 0) + float_loop false (skipn (if ceq c "-" then 1 else 0) t) <= List.length t).
  { assert (FL : forall u b, float_loop b u <= List.length u).
    { induction u as [|x u IH]; intros b; cbn [float_loop]; [cbn; lia|]. cbn [List.length].
      destruct (ceq x "."); [destruct b; [lia|specialize (IH true); lia]|]. destruct (isdigit x); [specialize (IH b); lia|lia]. }
    pose proof (FL (skipn (if ceq c "-" then 1 else 0) t) false) as HF. rewrite skipn_length in HF.
    destruct (ceq c "-") eqn:E; [|lia]. apply ceq_true in E. subst c. apply rd_lt in Hc; [lia|discriminate]. }
  apply post_check. intros _. exact H.
Qed.
Lemma v1_hex_safe U t : post U (len_ok t) (v1_hex t).
Proof.
  unfold v1_hex. eapply post_bind; [apply post_rd; lia|]. intros c0 H0.
  apply post_check. intros E0. apply ceq_true in E0. subst c0.
  assert (L0 : 0 < List.length t) by (eapply rd_lt; [exact H0|discriminate]).
  eapply post_bind; [apply post_rd; lia|]. intros c1 H1.
  apply post_check. intros E1. apply ceq_true in E1. subst c1.
  assert (L1 : 1 < List.length t) by (eapply rd_lt; [exact H1|discriminate]). cbv zeta.
  pose proof (scan_le isxdigit (skipn 2 t)) as HS. rewrite skipn_length in HS.
  eapply post_bind; [apply post_rd; lia|]. intros c _. apply post_check. intros _. unfold len_ok. cbn [post fst]. lia.
Qed.
Lemma v1_quoted_safe U t : post U (len_ok t) (v1_quoted t).
Proof.
  unfold v1_quoted. apply post_check. intros Hl. eapply post_bind; [apply post_rd; lia|]. intros c _. apply post_check. intros _. cbv zeta.
  pose proof (scan_le (fun c => negb (ceq c """")) (skipn 1 t)) as HS. rewrite skipn_length in HS.
  apply post_check. intros Hi. eapply post_bind; [apply post_rd; lia|]. intros q _. apply post_check. intros _. unfold len_ok. cbn [post fst]. lia.
Qed.
Lemma v1_cisco_safe U e t : post U (len_ok t) (v1_cisco e t).
Proof.
  unfold v1_cisco. eapply post_bind; [eapply post_monoU; [apply cisco_safe|]|].
  - intros u (_ & H & _). discriminate.
  - intros [n v] Hn. destruct v; try exact Hn.
    all: try (destruct (obj_get _ (L "ip2")); [exact Hn|]; destruct (obj_get _ (L "user")); [exact Hn|]; destruct (Nat.eqb _ _); exact Hn).
Qed.

Lemma fwd_safe (U : ub -> Prop) msg offs r : post U (len_ok (skipn offs msg)) r ->
  post U (fun x => offs <= List.length msg -> offs <= fst x <= List.length msg) (let* (n, v) := r in Ok (offs + n, v)).
Proof. intros H. eapply post_bind; [exact H|]. intros [n v] Hn. unfold len_ok in Hn. cbn [post fst] in *. rewrite skipn_length in Hn. lia. Qed.

Lemma long_run_skip k o msg : long_run k (skipn o msg) -> long_run k msg.
Proof. intros H. destruct (skipn_sfx o msg) as [a Ha]. eapply long_run_sfx; [exact Ha|exact H]. Qed.

Lemma cterm_safe e f msg : In (vf_kind f) [KCharTo; KCharSep] ->
  post (vhazard e f msg) (fun c => exists d, vf_data f = Some (c :: d)) (cterm_of e (vf_data f)).
Proof.
  intros HK. unfold cterm_of. destruct (vf_data f) as [[|c [|c2 d]]|] eqn:E.
  - destruct (asserts_on e) eqn:EA; [eapply vz_char_assert; eauto; discriminate|eapply vz_char_empty; eauto].
  - cbn. eauto.
  - destruct (asserts_on e) eqn:EA; [eapply vz_char_assert; eauto; discriminate|cbn; eauto].
  - eapply vz_char_none; eauto.
Qed.

(** All of them. *)
Theorem run_v1_safe e msg f offs : tok_ok e ->
  post (vhazard e f msg) (fun r => ends_inside (vf_kind f) = true -> offs <= List.length msg -> offs <= fst r <= List.length msg) (run_v1 e msg f offs).
Proof.
  intros HT. set (t := skipn offs msg).
  assert (W : forall (U : ub -> Prop) r, post U (len_ok t) r -> (forall u, U u -> vhazard e f msg u) ->
    post (vhazard e f msg) (fun r => ends_inside (vf_kind f) = true -> offs <= List.length msg -> offs <= fst r <= List.length msg) (let* (n, v) := r in Ok (offs + n, v))).
  { intros U r H HU. eapply post_mono; [eapply post_monoU; [apply fwd_safe; exact H|exact HU]|]. auto. }
  assert (W2 : forall r, post Unone (len_ok t) r -> 
    post (vhazard e f msg) (fun r => ends_inside (vf_kind f) = true -> offs <= List.length msg -> offs <= fst r <= List.length msg) (let* (n, v) := r in Ok (offs + n, v))).
  { intros r H. apply (W Unone); auto. intros u []. }
  unfold run_v1. fold t. destruct (vf_kind f) eqn:EK.
  - apply (W (Uov e 10 t)); [apply post_vtext, rfc3164_safe|]. intros u (-> & H1 & H2). apply vz_date; auto; [rewrite EK; left; auto|]. eapply long_run_skip; eauto.
  - apply (W (Udate e FmtString t)); [apply post_vtext, rfc5424_safe|]. intros u (H & [[-> H2]|[X _]]); [|discriminate].
    apply vz_date; auto; [rewrite EK; right; left; auto|]. eapply long_run_skip; eauto.
  - apply W2, post_vtext, v1_number_safe.
  - apply W2, post_vtext, v1_float_safe.
  - apply W2, post_vtext, v1_hex_safe.
  - apply W2, post_vtext, kernel_safe.
  - apply W2, post_vtext, whitespace_safe.
  - apply W2, post_vtext, ipv4_safe.
  - apply W2, post_vtext, ipv6_safe.
  - apply W2, post_vtext, word_safe.
  - apply W2, post_vtext, alpha_safe.
  - apply W2, post_vtext, rest_safe.
  - apply W2, op_quoted_safe.
  - apply W2, v1_quoted_safe.
  - apply W2, post_vtext, date_iso_safe.
  - apply W2, post_vtext, time24_safe.
  - apply W2, post_vtext, time12_safe.
  - apply W2, post_vtext, duration_safe.
  - apply W2, v1_cisco_safe.
  - apply W2, json_safe, HT.
  - eapply post_bind; [eapply (post_monoU Unone); [apply cee_safe|intros u []]|]. intros [n v] _. cbn. discriminate.
  - apply W2, mac48_safe.
  - apply W2, v1_nvlist_safe.
  - eapply post_bind; [apply (v1_cef_safe (vhazard e f msg))|].
    + intros H. apply vz_cef_assert; auto.
    + intros H. apply vz_cef_bs; auto. eapply ends_bs_skipn; exact H.
    + intros [n v] _. cbn. discriminate.
  - eapply post_bind; [eapply (post_monoU Unone); [|intros u []]|].
    + eapply post_bind; [apply v1_lea_safe; lia|]. intros [n v] H. instantiate (1 := fun _ => True). exact I.
    + intros [n v] _. cbn. discriminate.
  - apply W2, iptables_safe.
  - apply vz_ipt. exact EK.
  - apply (W (vhazard e f msg)); [|auto]. apply post_vtext. unfold v1_stringto. destruct (vf_data f) as [s|] eqn:ED.
    + destruct (existsb (ceq NUL) s || (is_nil s && existsb (ceq NUL) t))%bool eqn:EX; [|apply string_to_safe].
      eapply vz_str_nul; eauto. apply orb_true_iff in EX. destruct EX as [EX|EX].
      * left. apply existsb_exists in EX. destruct EX as (c & HI & Hc). apply ceq_true in Hc. subst c. exact HI.
      * right. apply andb_true_iff in EX. destruct EX as (E1 & EX). split; [destruct s; [auto|discriminate]|].
        apply existsb_exists in EX. destruct EX as (c & HI & Hc). apply ceq_true in Hc. subst c. eapply In_skipn. exact HI.
    + destruct (asserts_on e) eqn:EA; [apply vz_str_assert; auto|apply vz_str_none; auto].
  - apply (W (vhazard e f msg)); [|auto]. apply post_vtext. unfold v1_charto. eapply post_bind; [apply cterm_safe; rewrite EK; cbn; auto|].
    intros c _. apply post_check. intros _. apply post_check. intros _. apply scan_le.
  - apply (W (vhazard e f msg)); [|auto]. apply post_vtext. unfold v1_charsep. eapply post_bind; [apply cterm_safe; rewrite EK; cbn; auto|].
    intros c _. apply scan_le.
  - apply vz_sub; rewrite EK; reflexivity.
  - apply vz_sub; rewrite EK; reflexivity.
  - apply vz_sub; rewrite EK; reflexivity.
  - apply vz_sub; rewrite EK; reflexivity.
  - apply vz_sub; rewrite EK; reflexivity.
  - apply vz_sub; rewrite EK; reflexivity.
Qed.

Theorem run_v1_ub e msg f offs u : tok_ok e -> run_v1 e msg f offs = Ub u -> vhazard e f msg u.
Proof. intros HT E. pose proof (run_v1_safe e msg f offs HT) as H. rewrite E in H. exact H. Qed.
Theorem run_v1_inside e msg f offs o' v : tok_ok e -> ends_inside (vf_kind f) = true -> offs <= List.length msg ->
  run_v1 e msg f offs = Ok (o', v) -> offs <= o' <= List.length msg.
Proof. intros HT HK Ho E. pose proof (run_v1_safe e msg f offs HT) as H. rewrite E in H. exact (H HK Ho). Qed.
Theorem complete_safe e msg f offs u : tok_ok e -> harmless e msg -> complete f -> run_v1 e msg f offs <> Ub u.
Proof.
  intros HT (H1 & H2 & H3 & H4 & H5) HC E. apply run_v1_ub in E; auto. unfold complete in HC. inversion E as [K|K D|d K D|K D|K D|K D|d K D X|K|K|K|K]; try congruence.
  all: try (rewrite K, D in HC; destruct HC as (d & X & _); discriminate).
  all: try (rewrite K in HC; contradiction).
  all: try (destruct (vf_kind f); try discriminate; contradiction).
  all: try (rewrite D in HC; cbn in K; destruct K as [K|[K|[]]]; rewrite <- K in HC; destruct HC as (c & X); discriminate).
  rewrite K, D in HC. destruct HC as (d' & [= <-] & N1 & N2). destruct X as [X|(X & _)]; auto.
Qed.

(** At the end of the message most types match nothing. *)
Theorem run_v1_end e msg f o' v : tok_ok e -> may_be_empty (vf_kind f) = false -> run_v1 e msg f (List.length msg) <> Ok (o', v).
Proof.
  intros HT HK E. unfold run_v1 in E. rewrite skipn_all in E.
  destruct (vf_kind f); try discriminate; cbn in E; try discriminate.
  - unfold v1_stringto in E. destruct (vf_data f) as [s|]; [|destruct (asserts_on e); discriminate].
    destruct (_ || _)%bool; [discriminate|]. vm_compute in E. discriminate.
  - unfold v1_charto in E. destruct (cterm_of e (vf_data f)); cbn in E; discriminate.
Qed.
