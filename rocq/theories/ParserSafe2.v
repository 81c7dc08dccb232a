(** * ParserSafe2: the same for the field parsers with inner structure. *)
From Verif Require Import Base Time Parsers BaseFacts FieldSpec SafetySpec FieldFacts FieldFacts2 FieldFacts3 FieldFacts4 IntFacts ParserSafe.
From Coq Require Import ZifyBool ZifyNat ZifyN.

(** ** cisco-interface-spec *)
Lemma post_try_len U t r : post U (len_ok t) r -> post U (fun o => forall n, o = Some n -> n <= List.length t) (try_len r).
Proof.
  destruct r as [[n v]|k|u]; cbn; auto.
  - intros H m [= <-]. exact H.
  - intros _ m; discriminate.
Qed.
Lemma cisco_iface_safe U : forall t i, post U (fun k => k <= i + List.length t) (cisco_iface t i).
Proof.
  induction t as [|c t IH]; intros i; cbn [cisco_iface]; [cbn; lia|]. apply post_check. intros _.
  destruct (ceq c ":"); [cbn; lia|]. eapply post_mono; [apply IH|]. cbn. intros; lia.
Qed.
Lemma number_safe_sfx e f mx want t i : post (Uov e 19 t) (len_ok (skipn i t)) (parseNumber e f mx want (skipn i t)).
Proof.
  eapply post_monoU; [apply number_safe|]. intros u (? & ? & H). split; auto. split; auto.
  destruct (skipn_sfx i t) as [a Ha]. eapply long_run_sfx; [exact Ha|exact H].
Qed.
Lemma cisco_ip2_safe e t i : i <= List.length t ->
  post (Uov e 19 t) (fun r => fst r <= List.length t) (cisco_ip2 e t i).
Proof.
  intros Hi. unfold cisco_ip2. destruct (Nat.ltb_spec (i + 5) (List.length t)) as [Hl|Hl]; cbn [negb]; [|exact Hi].
  eapply post_bind; [apply post_rd; lia|]. intros c _. destruct (negb (ceq _ _)); [exact Hi|].
  eapply post_bind; [apply post_rd; lia|]. intros d _. destruct (negb (ceq _ _)); [exact Hi|].
  eapply post_bind; [apply post_try_len, ipv4_safe|]. intros [l|] Hlen; [|exact Hi].
  specialize (Hlen l eq_refl). rewrite skipn_length in Hlen.
  replace (Nat.ltb i (List.length t)) with true by (symmetry; apply Nat.ltb_lt; lia). cbn [bind negb].
  eapply post_bind; [apply post_try_len, number_safe_sfx|]. intros [l2|] Hl2; [|exact Hi].
  specialize (Hl2 l2 eq_refl). rewrite skipn_length in Hl2.
  destruct (Nat.ltb_spec (S (i + 2 + l) + l2) (List.length t)) as [H|H]; cbn [negb]; [|exact Hi].
  eapply post_bind; [apply post_rd; lia|]. intros c2 _. destruct (ceq c2 ")"); cbn [fst post]; [|exact Hi]. cbn [fst]. lia.
Qed.
Lemma cisco_user_safe U t i : i <= List.length t ->
  post U (fun r => fst r <= List.length t) (cisco_user t i).
Proof.
  intros Hi. unfold cisco_user.
  eapply post_bind.
  { instantiate (1 := fun b => b = true -> i + 2 < List.length t).
    destruct (Nat.ltb_spec (i + 2) (List.length t)) as [Hl|Hl]; [|cbn; discriminate].
    eapply post_bind; [apply post_rd; lia|]. intros c _. destruct (ceq c "("); [|cbn; discriminate].
    eapply post_bind; [apply post_rd; lia|]. intros d _. cbn. auto. }
  intros cond1 H1. eapply post_bind.
  { instantiate (1 := fun b => b = true -> i + 2 < List.length t).
    destruct cond1; [exact H1|]. destruct (Nat.ltb_spec (i + 3) (List.length t)) as [Hl|Hl]; [|cbn; discriminate].
    eapply post_bind; [apply post_rd; lia|]. intros c _. destruct (ceq c " "); [|cbn; discriminate].
    eapply post_bind; [apply post_rd; lia|]. intros d _. destruct (ceq d "("); [|cbn; discriminate].
    eapply post_bind; [apply post_rd; lia|]. intros f _. cbn. intros _. lia. }
  intros cond H2. destruct cond; cbn [negb]; [|exact Hi]. specialize (H2 eq_refl).
  eapply post_bind; [apply post_rd; lia|]. intros c _.
  set (idx := i + (if ceq c " " then 2 else 1)).
  match goal with |- context [scan ?P (skipn idx t)] => remember (scan P (skipn idx t)) as k end.
  destruct (Nat.ltb_spec (idx + k) (List.length t)) as [Hl|Hl]; cbn [negb]; [|exact Hi].
  eapply post_bind; [apply post_rd; lia|]. intros c2 _. destruct (ceq c2 ")"); cbn [fst post]; [|exact Hi]. lia.
Qed.
Lemma cisco_safe e want t : post (Uov e 19 t) (len_ok t) (parseCisco e want t).
Proof.
  unfold parseCisco. eapply post_bind; [apply post_rd; lia|]. intros c _. apply post_check. intros _.
  eapply post_bind; [apply post_try_len, ipv4_safe|]. intros ip0 H0.
  eapply post_bind.
  { instantiate (1 := fun r => let '(i, iface, have) := r in i <= List.length t /\
       match have with Some len => i = len - 1 /\ len <= List.length t | None => True end).
    destruct ip0 as [len|].
    - specialize (H0 len eq_refl). cbn. lia.
    - eapply post_bind; [apply cisco_iface_safe|]. intros i Hi. cbn in *. auto. }
  intros [[i iface] have] [Hi Hh]. apply post_check. intros Hne.
  eapply post_bind.
  { instantiate (1 := fun r => let '(i, idx, len) := r in i <= List.length t).
    destruct have as [len|]; [cbn; lia|]. eapply post_bind; [apply ipv4_safe|]. intros [len v] Hl.
    unfold len_ok in Hl. cbn [fst] in Hl. rewrite skipn_length in Hl. cbn. lia. }
  intros [[i2 idx] len] Hi2. apply post_check. intros Hne2.
  eapply post_bind; [apply post_rd; lia|]. intros c2 _. apply post_check. intros _.
  eapply post_bind; [apply number_safe_sfx|]. intros [lp v] Hlp. unfold len_ok in Hlp. cbn [fst] in Hlp. rewrite skipn_length in Hlp.
  eapply post_bind; [apply cisco_ip2_safe; lia|]. intros [i3 ip2] Hi3. cbn [fst] in Hi3.
  eapply post_bind; [apply cisco_user_safe; exact Hi3|]. intros [i4 user] Hi4. cbn [fst] in Hi4.
  destruct want; exact Hi4.
Qed.

(** ** v2-iptables *)
Lemma iptnv_safe U u : post U (fun r => let '(k, _, _) := r in 1 <= k <= List.length u) (parseIptNV u).
Proof.
  unfold parseIptNV. pose proof (scan_le isIptName u) as HS. remember (scan isIptName u) as i.
  apply post_check. intros Hi. destruct (Nat.ltb_spec i (List.length u)) as [Hl|Hl]; [|cbn; lia].
  eapply post_bind; [apply post_rd; lia|]. intros c _. apply post_check. intros _. destruct (ceq c " "); cbn [negb]; [cbn; lia|].
  pose proof (scan_le (fun c => negb (isspace c)) (skipn (S i) u)) as HS2. rewrite skipn_length in HS2.
  remember (scan (fun c => negb (isspace c)) (skipn (S i) u)) as l. cbn [post]. lia.
Qed.
Lemma ipt_sp (u : text) : match u with c :: _ => if ceq c " " then 1 else 0 | [] => 0 end <= List.length u.
Proof. destruct u as [|c u]; cbn; [lia|]. destruct (ceq c " "); lia. Qed.
Lemma ipt_stage1_safe U : forall f u, List.length u < f -> post U (fun r => fst r <= List.length u) (ipt_stage1 f u).
Proof.
  induction f as [|f IH]; intros u Hf; [lia|]. cbn [ipt_stage1]. destruct u as [|c0 u0] eqn:Eu; [cbn; lia|]. rewrite <- Eu in *.
  clear Eu c0 u0. eapply post_bind; [apply iptnv_safe|]. intros [[k nm] v] Hk.
  pose proof (ipt_sp (skipn k u)) as Hs. match goal with |- context [ipt_stage1 f (skipn ?x _)] => set (s := x) in * end.
  rewrite skipn_length in Hs. clearbody s.
  eapply post_bind; [apply IH; rewrite !skipn_length; lia|]. intros [k' nf] Hk'. cbn [fst post] in *. rewrite !skipn_length in Hk'. lia.
Qed.
Lemma ipt_stage2_safe U : forall f u o, List.length u < f -> post U (fun _ => True) (ipt_stage2 f u o).
Proof.
  induction f as [|f IH]; intros u o Hf; [lia|]. cbn [ipt_stage2]. destruct u as [|c0 u0] eqn:Eu; [exact I|]. rewrite <- Eu in *.
  clear Eu c0 u0. eapply post_bind; [apply iptnv_safe|]. intros [[k nm] v] Hk. cbv zeta.
  apply IH. rewrite !skipn_length. lia.
Qed.
Lemma iptables_safe U want t : post U (len_ok t) (parseIptables want t).
Proof.
  unfold parseIptables. eapply post_bind; [apply ipt_stage1_safe; lia|]. intros [k nf] Hk. cbn [fst] in Hk.
  apply post_check. intros _. destruct want; cbn [negb]; [|exact Hk].
  pose proof (ipt_stage2_safe U (S (List.length t)) t [] (Nat.lt_succ_diag_r _)) as H2.
  destruct (ipt_stage2 _ t []); [exact Hk|exact I|exact H2].
Qed.

(** ** json, cee-syslog: the tokener must not claim more than it was given *)

Lemma json_safe U e want t : tok_ok e -> post U (len_ok t) (parseJSON e want t).
Proof.
  intros Ht. unfold parseJSON. eapply post_bind; [apply post_rd; lia|]. intros c _. apply post_check. intros _.
  destruct (json_tok e t) as [[j n]|] eqn:E; [|exact I]. exact (Ht _ _ _ E).
Qed.
Lemma cee_safe U e offs want t : post U (fun r => fst r = offs + List.length t) (parseCEE e offs want t).
Proof.
  unfold parseCEE. apply post_check. intros Hl. eapply post_bind; [apply rdall_safe; cbn; lia|]. intros _ _.
  pose proof (scan_le isspace (skipn 5 t)) as HS. rewrite skipn_length in HS. remember (scan isspace (skipn 5 t)) as k.
  apply post_check. intros Hne. eapply post_bind; [apply post_rd; lia|]. intros c _. apply post_check. intros _.
  destruct (json_tok e _) as [[j n]|]; [|exact I]. apply post_check. intros _. reflexivity.
Qed.

(** ** name-value-list *)
Lemma nv_value_le stop : forall u odd, nv_value stop odd u <= List.length u.
Proof.
  induction u as [|c u IH]; intros odd; cbn [nv_value]; [lia|]. destruct (_ || _)%bool; [|lia].
  specialize (IH (if ceq c "\" then negb odd else false)). cbn [List.length]. lia.
Qed.
Lemma namevalue_safe U sep ass u :
  post U (fun r => let '(k, _, _) := r in 1 <= k <= List.length u) (parseNameValue sep ass u).
Proof.
  unfold parseNameValue.
  match goal with |- context [scan ?P u] => pose proof (scan_le P u) as HS; remember (scan P u) as i end.
  apply post_check. intros Hi. eapply post_bind; [apply post_rd; lia|]. intros c Hc. apply post_check. intros Ec.
  assert (Hl : i < List.length u).
  { eapply rd_lt; [exact Hc|]. intros ->. destruct (ceq ass NUL) eqn:Ea; cbn [negb] in Ec; [discriminate|].
    apply ceq_true in Ec. subst ass. rewrite ceq_refl in Ea. discriminate. }
  eapply post_bind; [apply post_rd; lia|]. intros q Hq.
  set (quoted := (Nat.ltb (S i) (List.length u) && (ceq q """" || ceq q "'"))%bool).
  set (i2 := if quoted then S (S i) else S i).
  assert (Hi2 : i2 <= List.length u).
  { subst i2. destruct quoted eqn:Eq; [|lia]. subst quoted. apply andb_true_iff in Eq as [Eq _]. apply Nat.ltb_lt in Eq. lia. }
  assert (Hi2' : i < i2) by (subst i2; destruct quoted; lia).
  set (kv := if quoted then _ else _).
  assert (Hkv : kv <= List.length u - i2).
  { subst kv. destruct quoted; match goal with |- nv_value ?s ?o ?v <= _ => pose proof (nv_value_le s v o) as HV end; rewrite skipn_length in HV; exact HV. }
  clearbody kv i2 quoted.
  eapply post_bind.
  { instantiate (1 := fun b => b = true -> i2 + kv < List.length u). destruct (Nat.ltb_spec (i2 + kv) (List.length u)) as [H|H]; [|cbn; discriminate].
    eapply post_bind; [apply post_rd; lia|]. intros c2 _. cbn. auto. }
  intros atq Hat. eapply post_bind.
  { instantiate (1 := fun k => i2 <= k <= List.length u). destruct atq; [specialize (Hat eq_refl); cbn; lia|].
    match goal with |- context [if ?b then Bad 0 else _] => destruct b end; cbn; [exact I|lia]. }
  intros i3 Hi3. cbn [post]. cbv beta in Hi3. lia.
Qed.
Lemma nv_loop_safe U sep ass : forall f u o, List.length u < f -> post U (fun r => fst r <= List.length u) (nv_loop f sep ass u o).
Proof.
  induction f as [|f IH]; intros u o Hf; [lia|]. cbn [nv_loop]. destruct u as [|c0 u0] eqn:Eu; [cbn; lia|]. rewrite <- Eu in *.
  clear Eu c0 u0. pose proof (namevalue_safe U sep ass u) as HN.
  destruct (parseNameValue sep ass u) as [[[k nm] v]|k|x]; cbn [post] in HN; [|cbn; lia|exact HN]. cbv zeta.
  destruct (match skipn k u with [] => false | c :: _ => negb (isSep sep c) end); [cbn; lia|].
  pose proof (scan_le (isSep sep) (skipn k u)) as HS. rewrite skipn_length in HS. remember (scan (isSep sep) (skipn k u)) as s.
  eapply post_bind; [apply IH; rewrite !skipn_length; lia|]. intros [k' o'] Hk'. cbn [fst post] in *. rewrite !skipn_length in Hk'. lia.
Qed.
Lemma nvlist_safe U sep ass want t : post U (len_ok t) (parseNVList sep ass want t).
Proof.
  unfold parseNVList. eapply post_bind; [apply nv_loop_safe; lia|]. intros [k o] Hk. cbn [fst] in Hk.
  destruct want; cbn [negb]; [|exact Hk]. eapply post_bind; [apply nv_loop_safe; lia|]. intros [k' o'] _. exact Hk.
Qed.

(** ** checkpoint-lea *)
Lemma lea_loop_safe U term want : forall f u nf v, List.length u < f ->
  post U (fun r => fst r <= List.length u) (lea_loop f term want u nf v).
Proof.
  induction f as [|f IH]; intros u nf v Hf; [lia|]. cbn [lea_loop]. destruct u as [|c0 u0] eqn:Eu; [cbn; lia|]. rewrite <- Eu in *.
  clear Eu c0 u0.
  pose proof (scan_le (ceq " ") u) as HS. remember (scan (ceq " ") u) as s. clear Heqs.
  destruct (skipn s u) as [|c u1] eqn:E1; [destruct (Nat.eqb nf 0); cbn; [exact I|lia]|].
  pose proof (f_equal (@List.length _) E1) as HL. rewrite skipn_length in HL. remember (c :: u1) as w. clear Heqw.
  destruct (ceq c term); [cbn; lia|].
  pose proof (scan_le (fun c => negb (ceq c ":")) w) as HS1. remember (scan (fun c => negb (ceq c ":")) w) as ln. clear Heqln.
  apply post_check. intros H1. eapply post_bind; [apply post_rd; lia|]. intros cc _. apply post_check. intros _.
  pose proof (scan_le (ceq " ") (skipn (S ln) w)) as HS2. rewrite skipn_length in HS2. remember (scan (ceq " ") (skipn (S ln) w)) as s2. clear Heqs2.
  set (u3 := skipn s2 (skipn (S ln) w)).
  assert (HL3 : List.length u3 = List.length w - S ln - s2) by (subst u3; rewrite !skipn_length; reflexivity).
  clearbody u3.
  pose proof (scan_le (fun c => negb (ceq c ";")) u3) as HS3. remember (scan (fun c => negb (ceq c ";")) u3) as lv. clear Heqlv.
  apply post_check. intros H3. eapply post_bind; [apply post_rd; lia|]. intros sc _. apply post_check. intros _.
  eapply post_bind; [apply IH; rewrite skipn_length; lia|]. intros [k v'] Hk. cbn [fst post] in *. rewrite skipn_length in Hk. lia.
Qed.
Lemma lea_safe U term want t : post U (len_ok t) (parseLEA term want t).
Proof. apply lea_loop_safe. lia. Qed.

(** ** cef *)
Definition Ucef (e : env) (u : ub) : Prop := u = AssertFail /\ asserts_on e = true.

Lemma cef_hdr_scan_safe U : forall f u, List.length u < f -> post U (fun k => k <= List.length u) (cef_hdr_scan u).
Proof.
  induction f as [|f IH]; intros u Hf; [lia|]. destruct u as [|c u]; cbn [cef_hdr_scan]; [cbn; lia|]. cbn [List.length] in Hf.
  destruct (ceq c "|"); [cbn; lia|]. destruct (ceq c "\").
  - destruct u as [|d u]; [exact I|]. cbn [List.length] in Hf. apply post_check. intros _.
    eapply post_bind; [apply IH; lia|]. intros k Hk. cbn in *. lia.
  - eapply post_bind; [apply IH; lia|]. intros k Hk. cbn in *. lia.
Qed.
Lemma cef_hdr_safe e (U : ub -> Prop) u : (asserts_on e = true -> U AssertFail) ->
  post U (fun r => List.length (snd r) <= List.length u) (cefGetHdrField e u).
Proof.
  intros HU. unfold cefGetHdrField. eapply post_bind; [apply post_rd; lia|]. intros c _.
  destruct (asserts_on e && ceq c "|")%bool eqn:E; [apply andb_true_iff in E as [E _]; cbn; auto|].
  eapply post_bind; [apply (cef_hdr_scan_safe U (S (List.length u))); lia|]. intros k Hk. cbv beta in Hk.
  eapply post_bind; [apply post_rd; lia|]. intros c2 _. apply post_check. intros _. cbn [post snd]. rewrite skipn_length. lia.
Qed.
Lemma cef_name_safe U : forall u, post U (fun k => k <= List.length u) (cef_name u).
Proof.
  induction u as [|c u IH]; cbn [cef_name]; [cbn; lia|]. destruct (ceq c "="); [cbn; lia|]. apply post_check. intros _.
  eapply post_bind; [apply IH|]. intros k Hk. cbn in *. lia.
Qed.
Lemma cef_val_loop_safe U start : forall u i last had esc, start <= i -> (last = 0 \/ start < last <= i) -> (had = true -> start < i) ->
  post U (fun r => i <= fst r <= i + List.length u /\ (snd r = 0 \/ start < snd r <= fst r)) (cef_val_loop u i last had esc).
Proof.
  induction u as [|c u IH]; intros i last had esc H0 H1 H2; cbn [cef_val_loop]; [cbn; lia|].
  assert (HC : forall last' had' esc', (last' = 0 \/ start < last' <= S i) ->
    post U (fun r => i <= fst r <= i + List.length (c :: u) /\ (snd r = 0 \/ start < snd r <= fst r)) (cef_val_loop u (S i) last' had' esc')).
  { intros last' had' esc' Hl. eapply post_mono; [apply IH; lia|]. intros [a b]. cbn. lia. }
  destruct esc; [apply post_check; intros _; apply HC; lia|]. destruct (ceq c "="); [cbn; lia|].
  destruct (ceq c "\"); [apply HC; lia|]. destruct (ceq c " "); [apply HC; lia|].
  destruct had; apply HC; [specialize (H2 eq_refl)|]; lia.
Qed.
Lemma cef_value_safe U t i : i <= List.length t ->
  post U (fun k => i <= k <= List.length t /\ exists j last, cef_val_loop (skipn i t) i 0 false false = Ok (j, last) /\ k <= j)
   (cefParseExtensionValue t i).
Proof.
  intros Hi. unfold cefParseExtensionValue.
  eapply post_bind; [apply post_eq, (cef_val_loop_safe U i); [lia|auto|discriminate]|].
  intros [j last] [[H1 H2] He]. cbn [fst snd] in *. rewrite skipn_length in H1.
  destruct (Nat.ltb_spec j (List.length t)); [destruct (Nat.eqb_spec last 0)|]; cbn [post]; (split; [lia|]); exists j, last; split; auto; lia.
Qed.
(** no uninitialised byte is copied unless the message ends in a backslash *)
Lemma cef_unesc_init : forall f u i last had j l len, List.length u < f ->
  cef_val_loop u i last had false = Ok (j, l) -> ~ ends_bs u -> len <= j - i -> Forall (fun o => o <> None) (cef_unesc len u).
Proof.
  induction f as [|f IH]; intros u i last had j l len Hf; [lia|].
  destruct len as [|len]; [constructor|]. destruct u as [|c u]; [constructor|]. cbn [cef_val_loop cef_unesc List.length] in *.
  destruct (ceq c "=") eqn:E1.
  { intros [= <- <-] _ H. lia. }
  destruct (ceq c "\") eqn:E2.
  - destruct u as [|d u]; cbn [cef_val_loop List.length] in *.
    { intros _ Hn. exfalso. apply Hn. exists []. apply ceq_true in E2. subst. reflexivity. }
    destruct (ceq d "=" || ceq d "\" || ceq d "r" || ceq d "n" || ceq d "/")%bool eqn:Ed; [|discriminate].
    intros Hv Hn Hlen. constructor.
    + intros H. destruct (ceq d "="); [discriminate|]. destruct (ceq d "n"); [discriminate|]. destruct (ceq d "r"); [discriminate|].
      destruct (ceq d "\"); [discriminate|]. destruct (ceq d "/"); [discriminate|]. cbn in Ed. discriminate.
    + eapply IH; [lia|exact Hv| |lia]. intros [a Ha]. apply Hn. exists (c :: d :: a). rewrite Ha. reflexivity.
  - intros Hv Hn Hlen. constructor; [discriminate|].
    assert (Hn' : ~ ends_bs u) by (intros [a Ha]; apply Hn; exists (c :: a); rewrite Ha; reflexivity).
    destruct (ceq c " "); [eapply IH; [lia|exact Hv|auto|lia]|]. destruct had; (eapply IH; [lia|exact Hv|auto|lia]).
Qed.
Lemma cstr_init_safe U b : Forall (fun o => o <> None) b -> post U (fun _ => True) (cstr_init b).
Proof.
  induction b as [|[c|] b IH]; intros H; cbn [cstr_init]; inversion H; subst; [exact I| |congruence].
  destruct (ceq c NUL); [exact I|]. eapply post_bind; [apply IH; auto|]. intros r _. exact I.
Qed.
Lemma ends_bs_skipn i t : ends_bs (skipn i t) -> ends_bs t.
Proof. intros [a Ha]. exists (firstn i t ++ a). rewrite <- app_assoc, <- Ha, firstn_skipn. reflexivity. Qed.

Lemma cef_ext_safe (U : ub -> Prop) t store : (ends_bs t -> store = true -> U UninitRead) ->
  forall f i o, List.length t - i < f -> i <= S (List.length t) ->
  post U (fun _ => True) (cef_ext f t i store o).
Proof.
  intros HU. induction f as [|f IH]; intros i o Hf Hi; [lia|]. cbn [cef_ext].
  destruct (Nat.ltb_spec i (List.length t)) as [Hl|Hl]; cbn [negb]; [|exact I].
  pose proof (scan_le (ceq " ") (skipn i t)) as HS. rewrite skipn_length in HS.
  set (i1 := i + scan (ceq " ") (skipn i t)) in *. assert (H1 : i <= i1 <= List.length t) by (subst i1; lia). clearbody i1. clear HS.
  eapply post_bind; [apply cef_name_safe|]. intros ln Hln. cbv beta in Hln. rewrite skipn_length in Hln.
  eapply post_bind; [apply post_rd; lia|]. intros c Hc. apply post_check. intros Ec. apply ceq_true in Ec. subst c.
  apply rd_lt in Hc; [|discriminate].
  replace (Nat.ltb (i1 + ln) (List.length t)) with true by (symmetry; apply Nat.ltb_lt; lia).
  eapply post_bind.
  { instantiate (1 := fun r => let '(iv, lv, i2) := r in i < i2 <= S (List.length t) /\
      (~ ends_bs t -> Forall (fun o => o <> None) (cef_unesc lv (skipn iv t)))).
    eapply post_bind; [apply cef_value_safe; lia|]. intros k (Hk & j & last & Hv & Hkj). cbn [post]. split; [lia|].
    intros Hn. eapply (cef_unesc_init (S (List.length (skipn (S (i1 + ln)) t)))); [lia|exact Hv| |lia].
    intros H. apply Hn. eapply ends_bs_skipn; exact H. }
  intros [[iv lv] i2] [Hi2 Hun]. eapply post_bind.
  { instantiate (1 := fun _ => True). destruct store; [|exact I].
    assert (D : ends_bs t \/ ~ ends_bs t).
    { destruct (rev t) as [|c r] eqn:Er.
      - right. intros [a Ha]. rewrite Ha, rev_app_distr in Er. discriminate.
      - destruct (ascii_dec c "\"%char) as [->|Hne].
        + left. exists (rev r). rewrite <- (rev_involutive t), Er. reflexivity.
        + right. intros [a Ha]. rewrite Ha, rev_app_distr in Er. cbn in Er. injection Er as <- _. congruence. }
    destruct D as [D|D].
    - assert (HUU : U UninitRead) by auto. remember (cef_unesc lv (skipn iv t)) as b. clear -HUU.
      assert (HB : post U (fun _ => True) (cstr_init b)).
      { induction b as [|[c|] b IH]; cbn [cstr_init]; [exact I| |exact HUU]. destruct (ceq c NUL); [exact I|].
        eapply post_bind; [exact IH|]. intros r _. exact I. }
      eapply post_bind; [exact HB|]. intros r _. exact I.
    - eapply post_bind; [apply cstr_init_safe, Hun, D|]. intros v _. exact I. }
  intros o' _. apply IH; lia.
Qed.
Lemma cef_safe (U : ub -> Prop) e want t : (asserts_on e = true -> U AssertFail) -> (ends_bs t -> want = true -> U UninitRead) ->
  post U (fun r => fst r = List.length t) (parseCEF e want t).
Proof.
  intros HA HU. unfold parseCEF. apply post_check. intros Hl.
  eapply post_bind; [apply rdall_safe; cbn; lia|]. intros _ _.
  eapply post_bind; [apply cef_hdr_safe, HA|]. intros [vendor u1] _.
  eapply post_bind; [apply cef_hdr_safe, HA|]. intros [product u2] _.
  eapply post_bind; [apply cef_hdr_safe, HA|]. intros [version u3] _.
  eapply post_bind; [apply cef_hdr_safe, HA|]. intros [sigid u4] _.
  eapply post_bind; [apply cef_hdr_safe, HA|]. intros [name u5] _.
  eapply post_bind; [apply cef_hdr_safe, HA|]. intros [severity u6] _.
  cbv zeta.
  eapply post_bind; [apply cef_ext_safe; [discriminate|lia|lia]|]. intros _ _.
  destruct want; cbn [negb]; [|reflexivity].
  eapply post_bind; [apply cef_ext_safe; [auto|lia|lia]|]. intros ext _. reflexivity.
Qed.

(** ** string *)
Lemma permitted_safe (U : ub -> Prop) e cfg c t : In c t -> (char_signed e = true -> ~ ascii7 t -> U OobIndex) ->
  post U (fun _ => True) (isPermitted e cfg c).
Proof.
  intros Hin HU. unfold isPermitted. destruct (char_signed e && N.leb 128 (code c))%bool eqn:E; [|exact I].
  apply andb_true_iff in E as [E1 E2]. apply HU; auto. intros HF. unfold ascii7 in HF. rewrite Forall_forall in HF.
  specialize (HF c Hin). lia.
Qed.
Lemma string_scan_safe (U : ub -> Prop) e cfg t haveq : (char_signed e = true -> ~ ascii7 t -> U OobIndex) ->
  forall f i hadesc, List.length t - i < f -> i <= List.length t ->
  post U (fun r => let '(k, endq, _) := r in i <= k <= List.length t /\ (endq = true -> k < List.length t)) (string_scan f e cfg t i haveq hadesc).
Proof.
  intros HU. induction f as [|f IH]; intros i hadesc Hf Hi; [lia|]. cbn [string_scan].
  destruct (Nat.ltb_spec i (List.length t)) as [Hl|Hl]; cbn [negb]; [|cbn; split; [lia|discriminate]].
  eapply post_bind; [apply post_rd; lia|]. intros c _.
  eapply post_bind.
  { instantiate (1 := fun r => let '(stop, k, _) := r in i <= k < List.length t).
    destruct (haveq && ceq c (s_qe cfg))%bool; [|cbn; lia]. destruct (s_escdbl cfg); [|cbn; lia].
    eapply post_bind.
    { instantiate (1 := fun b => b = true -> i + 1 < List.length t). destruct (Nat.ltb_spec (i + 1) (List.length t)); [|cbn; discriminate].
      eapply post_bind; [apply post_rd; lia|]. intros d _. cbn. auto. }
    intros dbl Hd. cbv beta in Hd. destruct dbl; [specialize (Hd eq_refl)|]; cbn; lia. }
  intros [[stop k] he] Hk. destruct stop; [cbn; lia|].
  eapply post_bind; [apply post_rd; lia|]. intros c2 _.
  set (b := (ceq c2 "\" && Nat.ltb (k + 1) (List.length t) && s_escbs cfg)%bool).
  assert (Hb : b = true -> k + 1 < List.length t).
  { subst b. intros E. apply andb_true_iff in E as [E _]. apply andb_true_iff in E as [_ E]. apply Nat.ltb_lt in E. exact E. }
  destruct (if b then (S k, true) else (k, he)) as [i2 he2] eqn:E2.
  assert (Hi2 : i <= i2 < List.length t).
  { destruct b; injection E2 as <- <-; [specialize (Hb eq_refl)|]; lia. }
  clear E2 Hb. eapply post_bind; [apply post_rd; lia|]. intros c3 Hc3.
  destruct (negb haveq && ceq c3 " ")%bool; [cbn; split; [lia|discriminate]|].
  eapply post_bind; [apply (permitted_safe U e cfg c3 t); auto; destruct Hc3 as [Hc3|[Hc3 _]]; [eapply nth_error_In; eauto|lia]|].
  intros p _. destruct p; cbn [negb]; [|cbn; split; [lia|discriminate]].
  eapply post_mono; [apply IH; lia|]. intros [[k' q'] h']. lia.
Qed.
Lemma cstr_id t : ~ In NUL t -> cstr t = t.
Proof.
  induction t as [|c t IH]; intros H; cbn [cstr]; auto. destruct (ceq c NUL) eqn:E.
  - apply ceq_true in E. subst. exfalso. apply H. left. reflexivity.
  - rewrite IH; auto. intros Hin. apply H. right. auto.
Qed.
Lemma In_firstn {A} (x : A) n t : In x (firstn n t) -> In x t.
Proof. intros H. rewrite <- (firstn_skipn n t). apply in_or_app. auto. Qed.
Lemma In_skipn {A} (x : A) n t : In x (skipn n t) -> In x t.
Proof. intros H. rewrite <- (firstn_skipn n t). apply in_or_app. auto. Qed.

Lemma string_safe (U : ub -> Prop) e cfg want t : (char_signed e = true -> ~ ascii7 t -> U OobIndex) ->
  (In NUL t -> want = true -> U OobWrite) ->
  post U (len_ok t) (parseString e cfg want t).
Proof.
  intros HU HW. unfold parseString. apply post_check. intros Hl. eapply post_bind; [apply post_rd; lia|]. intros c Hc.
  eapply post_bind.
  { instantiate (1 := fun _ => True). destruct (s_quote cfg); [exact I|exact I|]. apply post_check. intros _. exact I. }
  intros haveq _. eapply post_bind; [apply string_scan_safe; [exact HU|lia|destruct haveq; lia]|].
  intros [[i endq] he] [Hi Hend]. apply post_check. intros Hq. apply post_check. intros Hi0.
  eapply post_bind.
  { instantiate (1 := fun _ => True). destruct (_ || _)%bool; [|exact I].
    eapply post_bind; [apply post_rd|]; [|intros x _; exact I].
    destruct haveq; [destruct endq; [specialize (Hend eq_refl); lia|discriminate]|lia]. }
  intros good _. apply post_check. intros _.
  assert (Hp : (if endq then S i else i) <= List.length t) by (destruct endq; [specialize (Hend eq_refl)|]; lia).
  destruct want; cbn [negb]; [|exact Hp].
  eapply post_bind; [|intros v _; exact Hp]. instantiate (1 := fun _ => True). cbv zeta.
  set (raw := if haveq then _ else _).
  assert (Hin : In NUL raw -> In NUL t).
  { subst raw. destruct haveq; intros H; [unfold sub in H; apply In_firstn, In_skipn in H|apply In_firstn in H]; exact H. }
  unfold string_value. destruct he; [|exact I].
  destruct (has_esc _ _ && _)%bool eqn:E; [|exact I]. apply andb_true_iff in E as [_ E]. apply Nat.ltb_lt in E.
  assert (In NUL t).
  { destruct (in_dec ascii_dec NUL raw) as [Hi'|Hn]; [auto|]. rewrite (cstr_id _ Hn) in E. lia. }
  cbn. auto.
Qed.

(** ** All of them *)
Lemma motif_safe e m want offs t : 
  post (hazard e m want t) (fun r => match m with
     | MCee => fst r = offs + List.length t
     | MJson => tok_ok e -> fst r <= List.length t
     | MLiteral _ | MOpQuoted => True
     | _ => fst r <= List.length t end) (run_motif e m want offs t).
Proof.
  assert (W : forall (U : ub -> Prop) r, post U (len_ok t) r -> (forall u, U u -> hazard e m want t u) ->
    post (hazard e m want t) (fun r => fst r <= List.length t) r).
  { intros U r H HU. eapply post_mono; [eapply post_monoU; [exact H|exact HU]|]. intros [n v] H'. exact H'. }
  destruct m; cbn [run_motif].
  - (* literal *)
    destruct (in_dec ascii_dec NUL t) as [Hn|Hn].
    + assert (H : forall t j, post (fun u => u = OobLit) (fun _ => True) (literal_loop lit t j)).
      { induction t0 as [|c u IH]; intros j; cbn [literal_loop]; [exact I|]. unfold rdlit.
        destruct (nth_error lit j) as [x|]; [|destruct (Nat.eqb _ _)]; cbn [bind post]; [| |reflexivity]; destruct (ceq _ c); (apply IH || exact I). }
      unfold parseLiteral. apply (post_monoU (fun u => u = OobLit)); [|intros u Hu; rewrite Hu; apply hz_literal; exact Hn].
      eapply post_bind; [apply H|]. intros j _. eapply post_bind; [|intros l _; destruct (ceq l NUL); exact I].
      instantiate (1 := fun _ => True). unfold rdlit. destruct (nth_error lit j); [exact I|]. destruct (Nat.eqb _ _); [exact I|reflexivity].
    + eapply post_mono; [apply literal_safe; exact Hn|]. auto.
  - eapply W; [apply rfc3164_safe|]. intros u (-> & H1 & H2). constructor; auto.
  - eapply W; [apply rfc5424_safe|]. intros u (H & [[-> H2]|[-> ->]]); constructor; auto.
  - eapply W; [apply number_safe|]. intros u (-> & H1 & H2). constructor; auto.
  - eapply (W Unone); [apply float_safe|intros u []].
  - eapply (W Unone); [apply hex_safe|intros u []].
  - eapply (W Unone); [apply kernel_safe|intros u []].
  - eapply (W Unone); [apply whitespace_safe|intros u []].
  - eapply (W Unone); [apply ipv4_safe|intros u []].
  - eapply (W Unone); [apply ipv6_safe|intros u []].
  - eapply (W Unone); [apply word_safe|intros u []].
  - eapply (W Unone); [apply alpha_safe|intros u []].
  - eapply (W Unone); [apply rest_safe|intros u []].
  - (* op-quoted *) destruct want.
    + eapply post_mono; [apply op_quoted_safe|]. auto.
    + unfold parseOpQuotedString, store_op. eapply post_bind; [apply post_rd; lia|]. intros c Hc.
      destruct (ceq c """") eqn:E; cbn [negb]; [|apply post_check; intros _; apply hz_opq].
      apply ceq_true in E. subst c. assert (L0 : 0 < List.length t) by (eapply rd_lt; [exact Hc|discriminate]).
      pose proof (scan_le (fun c => negb (ceq c """")) (skipn 1 t)) as HS. rewrite skipn_length in HS.
      remember (scan (fun c => negb (ceq c """")) (skipn 1 t)) as k.
      apply post_check. intros Hne. eapply post_bind; [apply post_rd; lia|]. intros q _. apply post_check. intros _. apply hz_opq.
  - eapply (W Unone); [apply quoted_safe|intros u []].
  - eapply (W Unone); [apply date_iso_safe|intros u []].
  - eapply (W Unone); [apply time24_safe|intros u []].
  - eapply (W Unone); [apply time12_safe|intros u []].
  - eapply (W Unone); [apply duration_safe|intros u []].
  - eapply W; [apply cisco_safe|]. intros u (-> & H1 & H2). constructor; auto.
  - eapply (W Unone); [apply nvlist_safe|intros u []].
  - (* json *)
    unfold parseJSON. eapply post_bind; [apply post_rd; lia|]. intros c _. apply post_check. intros _.
    destruct (json_tok e t) as [[j n]|] eqn:E; [|exact I]. intros Ht. exact (Ht _ _ _ E).
  - apply cee_safe.
  - eapply (W Unone); [apply mac48_safe|intros u []].
  - eapply post_mono; [apply cef_safe|].
    + intros H. constructor; auto.
    + intros H ->. constructor; auto.
    + intros [n v] H. cbn in *. lia.
  - eapply (W Unone); [apply lea_safe|intros u []].
  - eapply (W Unone); [apply iptables_safe|intros u []].
  - eapply (W Unone); [apply string_to_safe|intros u []].
  - eapply (W Unone); [apply char_to_safe|intros u []].
  - eapply (W Unone); [apply char_sep_safe|intros u []].
  - eapply W; [apply string_safe|intros u Hu; exact Hu].
    + intros H1 H2. constructor; auto.
    + intros H1 ->. constructor; auto.
  - constructor.
Qed.

Lemma motif_len e m want offs t n v : tok_ok e -> m <> MCee -> run_motif e m want offs t = Ok (n, v) -> n <= List.length t.
Proof.
  intros Ht Hm H. destruct m; try congruence;
  try (match type of H with run_motif e ?m _ _ _ = _ => pose proof (motif_safe e m want offs t) as HS; rewrite H in HS; cbn in HS; auto; fail end).
  - eapply literal_len; exact H.
  - eapply op_quoted_len; exact H.
Qed.
Lemma motif_ub e m want offs t u : run_motif e m want offs t = Ub u -> hazard e m want t u.
Proof. intros H. pose proof (motif_safe e m want offs t) as HS. rewrite H in HS. exact HS. Qed.
Lemma motif_no_ub e m want offs t u : harmless e t -> m_ok m want -> run_motif e m want offs t <> Ub u.
Proof.
  intros (H1 & H2 & H3 & H4 & H5) Hm H. apply motif_ub in H.
  assert (H19 : ~ long_run 19 t).
  { intros (a & ds & b & -> & Hd & Hl). apply H1. exists a, (firstn 10 ds), (skipn 10 ds ++ b). split.
    - rewrite (app_assoc (firstn 10 ds)), firstn_skipn. reflexivity.
    - split; [|rewrite firstn_length; lia]. rewrite <- (firstn_skipn 10 ds) in Hd. apply Forall_app in Hd as [Hd _]. exact Hd. }
  inversion H; subst; cbn in Hm; try contradiction; try congruence.
Qed.
