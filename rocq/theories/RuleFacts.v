(** * RuleFacts: matching a message against the rules a graph holds. *)
From Verif Require Import Base Parsers Engine Pdag Samp FieldSpec FieldFacts EngineSpec GraphSpec RuleSpec BuiltSpec BaseFacts EngineFacts EngineFacts2 EngineFacts3 HeapFacts BuildFacts BuildFacts2 BuildFacts3 OptSem OptFacts LoadFacts TreeFacts TreeFacts2 BuiltFacts.
From Coq Require Import ZifyBool ZifyNat ZifyN Permutation Sorted.

Definition want (nm : option text) : bool := match nm with Some _ => true | None => false end.

Lemma skip_at {A} (l : list A) i c : nth_error l i = Some c -> skipn i l = c :: skipn (S i) l.
Proof. revert i. induction l as [|a l IH]; intros [|i] H; try discriminate; [injection H as ->; reflexivity|]. cbn in H. cbn [skipn]. rewrite (IH _ H). reflexivity. Qed.
Lemma at_skip {A} (l : list A) i c r : skipn i l = c :: r -> nth_error l i = Some c.
Proof. revert i. induction l as [|a l IH]; intros [|i] H; try discriminate; [injection H as -> _; reflexivity|]. cbn in *. auto. Qed.

(** a rule, atom by atom, with the fields it delivers *)
Inductive atoms_take (e : env) (msg : text) : list atom -> nat -> nat -> list (option text * json) -> Prop :=
| at_nil : forall i, atoms_take e msg [] i i []
| at_char : forall c l from to vs, nth_error msg from = Some c -> atoms_take e msg l (S from) to vs -> atoms_take e msg (AChar c :: l) from to vs
| at_field : forall m nm l from n v to vs, from <= List.length msg -> run_motif e m (want nm) from (skipn from msg) = Ok (n, v) ->
    atoms_take e msg l (from + n) to vs -> atoms_take e msg (AField (KSimple m) nm :: l) from to ((nm, v) :: vs).

Definition store_all (o : fields) (vs : list (option text * json)) : fields := fold_right (fun nv o => store (fst nv) (snd nv) o) o vs.

Section M.
Variables (e : env) (msg : text).
Hypothesis Hnul : ~ In NUL msg.

Lemma take_le l from vs : atoms_take e msg l from (List.length msg) vs -> from <= List.length msg.
Proof.
  intros H. inversion H; subst; auto. apply Nat.lt_le_incl. apply nth_error_Some. congruence.
Qed.
Lemma chars_take t l from vs : from <= List.length msg ->
  (atoms_take e msg (map AChar t ++ l) from (List.length msg) vs <-> (exists post, skipn from msg = t ++ post) /\ atoms_take e msg l (from + List.length t) (List.length msg) vs).
Proof.
  revert from. induction t as [|c t IH]; intros from Hle; cbn [map app List.length].
  - rewrite Nat.add_0_r. split; [intros H; split; eauto|tauto].
  - split.
    + intros H. inversion H as [|? ? ? ? ? Hc H2|]; subst. assert (from < List.length msg) by (apply nth_error_Some; congruence).
      apply IH in H2 as [[post E] H2]; [|lia]. replace (from + S (List.length t)) with (S from + List.length t) by lia. split; auto. exists post.
      pose proof (skip_at msg from c Hc) as EE. rewrite EE, E. reflexivity.
    + intros [[post E] H]. assert (Hc : nth_error msg from = Some c) by (eapply at_skip; exact E).
      assert (from < List.length msg) by (apply nth_error_Some; congruence). constructor; auto. apply IH; [lia|]. replace (S from + List.length t) with (from + S (List.length t)) by lia. split; auto.
      exists post. pose proof (skip_at msg from c Hc) as EE. rewrite EE in E. injection E as E. exact E.
Qed.
Lemma lit_run t w from n v : ~ In NUL t -> run_motif e (MLiteral t) w from (skipn from msg) = Ok (n, v) <->
  (exists post, skipn from msg = t ++ post) /\ n = List.length t /\ v = (if w then JStr t else JNull).
Proof.
  intros Ht. cbn [run_motif]. assert (Hs : ~ In NUL (skipn from msg)). { intros H. apply Hnul. rewrite <- (firstn_skipn from msg). apply in_or_app. auto. }
  rewrite (literal_exact t w _ Ht Hs n v). split.
  - intros (pre & post & E & -> & -> & ->). eauto.
  - intros ((post & E) & -> & ->). exists t, post. repeat split; auto.
Qed.

Lemma atoms_of_field k nm : (exists t, k = KSimple (MLiteral t) /\ nm = None) \/ atoms_of (k, nm) = [AField k nm].
Proof. destruct k as [[]| |]; auto. destruct nm; auto. left. eauto. Qed.

Lemma walk_atoms cx w nd offs en : offs <= List.length msg -> walk e cx msg false nd offs w en -> ~ In (AChar NUL) (atoms (labels (map st_prs w))) ->
  exists vs, atoms_take e msg (atoms (labels (map st_prs w))) offs (List.length msg) vs /\ forall o, fields_of o w = store_all o vs.
Proof.
  intros Hle H. induction H as [nd n offs Hn Ht HE|nd n offs i p to v w en Hn Hi Ha HW IH]; intros HN.
  - exists []. split; [|reflexivity]. destruct HE as [->|HE]; [constructor|discriminate].
  - cbn [map st_prs] in *. rewrite atoms_cons in *. destruct Ha as (m & k & Hk & _ & -> & Hrun).
    assert (Hle2 : offs + k <= List.length msg) by (apply (walk_le _ _ _ _ _ _ _ HW)).
    destruct IH as (vs & HA & HF); [exact Hle2|intros Hx; apply HN; apply in_or_app; auto|].
    destruct (atoms_of_field (p_kind p) (p_name p)) as [(t & Ek & En)|E].
    + rewrite Ek in Hk. injection Hk as <-. rewrite Ek, En in *. cbn [atoms_of] in *.
      apply lit_run in Hrun as (HE & -> & _). 2:{ intros Hx. apply HN. apply in_or_app. left. apply in_map. auto. }
      exists vs. split; [apply chars_take; auto|]. intros o. cbn [fields_of fold_right st_prs st_val]. rewrite En. cbn [store]. apply HF.
    + rewrite E, Hk. exists ((p_name p, v) :: vs). split; [cbn [app]; econstructor; eauto|]. intros o. cbn. rewrite <- HF. reflexivity.
Qed.
Lemma atoms_walk cx : forall nd ps en, path (c_nodes cx) nd ps en -> (exists n, live (c_nodes cx) en n /\ n_term n = true) -> ~ In (AChar NUL) (atoms (labels ps)) ->
  forall offs vs, atoms_take e msg (atoms (labels ps)) offs (List.length msg) vs ->
  exists w, walk e cx msg false nd offs w en /\ map st_prs w = ps /\ forall o, fields_of o w = store_all o vs.
Proof.
  intros nd ps en H HT. induction H as [i|i n p ps j Hi Hp HP IH]; intros HN offs vs HA.
  - inversion HA; subst. destruct HT as (n & Hn & Ht). exists []. split; [econstructor; eauto|]. split; auto.
  - pose proof (take_le _ _ _ HA) as Hle. rewrite atoms_cons in *. apply In_nth_error in Hp as [ix Hix].
    destruct (atoms_of_field (p_kind p) (p_name p)) as [(t & Ek & En)|E].
    + rewrite Ek, En in *. cbn [atoms_of] in *. apply chars_take in HA as [HE HA]; auto.
      destruct (IH HT (fun H => HN (in_or_app _ _ _ (or_intror H))) _ _ HA) as (w & HW & Ew & HF).
      exists ({| st_idx := ix; st_prs := p; st_from := offs; st_to := offs + List.length t; st_val := JNull |} :: w).
      split; [|split; [cbn; congruence|]].
      * econstructor; eauto. exists (MLiteral t), (List.length t). repeat split; auto. unfold named. rewrite En. apply lit_run; auto. intros Hx. apply HN. apply in_or_app. left. apply in_map. auto.
      * intros o. cbn. rewrite En. cbn. apply HF.
    + rewrite E in *. cbn [app] in HA. inversion HA as [| |m nm ? ? k v ? vs2 Hle2 Hrun HA2]; subst.
      assert (Hx : ~ In (AChar NUL) (atoms (labels ps))) by (intros HH; apply HN; apply in_or_app; auto).
      destruct (IH HT Hx _ _ HA2) as (w & HW & Ew & HF).
      exists ({| st_idx := ix; st_prs := p; st_from := offs; st_to := offs + k; st_val := v |} :: w).
      split; [|split; [cbn; congruence|]].
      * econstructor; eauto. exists m, k. repeat split; auto.
      * intros o. cbn. rewrite <- HF. reflexivity.
Qed.

(** the same with whole fields *)
Lemma fields_atoms fs : ~ In (AChar NUL) (atoms (simple_fields fs)) -> forall from,
  fields_take e msg fs from (List.length msg) <-> exists vs, atoms_take e msg (atoms (simple_fields fs)) from (List.length msg) vs.
Proof.
  induction fs as [|[m nm] fs IH]; intros HN from.
  - split; [intros H; inversion H; subst; exists []; constructor|]. intros [vs H]. inversion H; subst. constructor.
  - change (atoms (simple_fields ((m, nm) :: fs))) with (atoms_of (KSimple m, nm) ++ atoms (simple_fields fs)) in *.
    assert (HN2 : ~ In (AChar NUL) (atoms (simple_fields fs))) by (intros H; apply HN; apply in_or_app; auto). specialize (IH HN2).
    destruct (atoms_of_field (KSimple m) nm) as [(t & [= ->] & ->)|E].
    + cbn [atoms_of] in *. assert (Ht : ~ In NUL t) by (intros Hx; apply HN; apply in_or_app; left; apply in_map; auto). split.
      * intros H. inversion H as [|? ? ? ? n v ? Hle Hrun H2]; subst. apply lit_run in Hrun as (HE & -> & _); auto. apply IH in H2 as [vs H2]. exists vs. apply chars_take; auto.
      * intros [vs H]. pose proof (take_le _ _ _ H) as Hle. apply chars_take in H as [HE H]; auto. econstructor; [exact Hle|apply lit_run; auto|]. apply IH. eauto.
    + rewrite E. cbn [app]. split.
      * intros H. inversion H as [|? ? ? ? n v ? Hle Hrun H2]; subst. apply IH in H2 as [vs H2]. exists ((nm, v) :: vs). econstructor; eauto.
      * intros [vs H]. inversion H as [| |? ? ? ? n v ? vs2 Hle Hrun H2]; subst. econstructor; eauto. apply IH. eauto.
Qed.

(** a message against the rules held *)
Definition clean (h : list (option node)) (r : nat) : Prop := forall l inf, hr h r l inf -> ~ In (AChar NUL) l.
Lemma walk_hr cx r : clean (c_nodes cx) r -> forall w en, walk e cx msg false r 0 w en ->
  exists l inf vs, hr (c_nodes cx) r l inf /\ atoms_take e msg l 0 (List.length msg) vs /\ (forall o, fields_of o w = store_all o vs) /\
    exists n, live (c_nodes cx) en n /\ n_term n = true /\ inf = (n_tags n, n_file n, n_line n).
Proof.
  intros HC w en H. pose proof (walk_path _ _ _ _ _ _ _ H) as (HP & (n & Hn & Ht) & _).
  assert (HH : hr (c_nodes cx) r (atoms (labels (map st_prs w))) (n_tags n, n_file n, n_line n)) by (exists (map st_prs w), en, n; auto).
  destruct (walk_atoms cx w r 0 en (Nat.le_0_l _) H (HC _ _ HH)) as (vs & HA & HF). exists (atoms (labels (map st_prs w))), (n_tags n, n_file n, n_line n), vs. eauto 10.
Qed.
Lemma hr_walk cx r l inf vs : clean (c_nodes cx) r -> hr (c_nodes cx) r l inf -> atoms_take e msg l 0 (List.length msg) vs ->
  exists w en, walk e cx msg false r 0 w en /\ (forall o, fields_of o w = store_all o vs) /\
    exists n, live (c_nodes cx) en n /\ n_term n = true /\ inf = (n_tags n, n_file n, n_line n).
Proof.
  intros HC HH HA. pose proof (HC _ _ HH) as HN. destruct HH as (ps & b & n & HP & Hb & Ht & Hi & El). rewrite <- El in *.
  destruct (atoms_walk cx r ps b HP (ex_intro _ n (conj Hb Ht)) HN 0 vs HA) as (w & HW & _ & HF). eauto 10.
Qed.
End M.

(** ** Graphs with simple fields only *)
Definition all_simple (h : list (option node)) : Prop := all_prs simple h.
Lemma all_simple_plain cx r : all_simple (c_nodes cx) -> plain cx r.
Proof. intros H b n _ Hn. apply Forall_forall. intros p Hp. exact (H b n p Hn Hp). Qed.
Lemma orel_simple S h h' : orel S h h' -> all_simple h -> all_simple h'.
Proof. intros HO. apply (o_kinds _ _ _ HO). intros t p E. exists (MLiteral t). exact E. Qed.
Lemma orel_clean S h h' r n : orel S h h' -> live h' r n -> clean h r -> clean h' r.
Proof. intros HO Hn HC l inf HH. apply (HC l inf). apply (o_hr _ _ _ HO _ _ Hn). exact HH. Qed.

(** ** Built graphs *)
Lemma built_msafe e k rs cx : built e k rs cx -> msafe cx.
Proof.
  induction 1 as [o|k rs cx t cs key r tags cx' HB IH Hr HC HF E|k rs cx t cs key r tags cx' HB IH Hr HC HF E|k rs cx nm HB IH Hr|k rs cx cx' HB IH E1 E2 E3].
  - exists [], (fun _ => 0). cbn [app]. repeat split.
    + intros [|i] n Hi; [injection Hi as <-; reflexivity|destruct i; discriminate].
    + intros j [<-|[]]. exists new_node. reflexivity.
    + intros [|i] n Hi; [injection Hi as <-; reflexivity|destruct i; discriminate].
    + intros [|i] n p t Hi Hp; [injection Hi as <-; destruct Hp|destruct i; discriminate].
  - pose proof (addSamp_safe e cx t r tags IH (owner_ok _ _ IH (root_owner _ _ _ Hr))) as HH. rewrite E in HH. apply HH.
  - pose proof (addSamp_safe e cx t r tags IH (owner_ok _ _ IH (root_owner _ _ _ Hr))) as HH. rewrite E in HH. apply HH.
  - destruct IH as (G & rk & HG). unfold newPDAG. exists G, (fresh_rank (List.length (c_nodes cx)) rk). cbn [fst snd c_nodes set_types set_nodes owners c_root c_types].
    pose proof (s_gi _ _ _ _ _ _ _ _ _ (step_new _ _ _ True HG)) as H. eapply gi_perm; [|exact H].
    intros j. unfold owners. cbn [app c_root c_types set_types set_nodes]. rewrite map_app. cbn [map snd]. repeat (rewrite cnt_app || rewrite cnt_cons). cbn [count_occ]. lia.
  - destruct IH as (G & rk & HG). exists G, rk. rewrite E1. unfold owners. rewrite E2, E3. exact HG.
Qed.

Lemma flat_simple e conf k nm : flat_field e [] conf = Some (k, nm) -> exists m, k = KSimple m.
Proof.
  unfold flat_field, newParser. cbn [c_types set_types findType].
  set (cx := set_types _ []). clearbody cx. set (addp := fun _ _ _ => _). clearbody addp.
  destruct (jget conf "type") as [tv|]; [|discriminate].
  assert (HR : forall rest cx' k', construct_repeat e addp rest cx = EOk (cx', k') -> match k' with KCustom _ => False | _ => True end).
  { intros rest cx' k' H. unfold construct_repeat in H. apply ebind_ok in H as ([[[cx1 pn] wn] pe] & _ & H).
    destruct pn, wn; [injection H as _ <-; exact I| | |]; apply ebind_ok in H as (h1 & _ & H); apply ebind_ok in H as (h2 & _ & H); injection H as _ <-; exact I. }
  destruct tv; try discriminate;
  (match goal with |- context [need_str e ?x] => destruct (need_str e x) as [typ|] end; [|discriminate]; cbn [ebind]; cbv zeta;
   match goal with |- context [if ?b then @None nat else None] => replace (if b then (None : option nat) else None) with (None : option nat) by (destruct b; reflexivity) end;
   match goal with |- context [negb ?b] => destruct b end; cbn [negb]; [|discriminate];
   match goal with |- context [ebind ?x _] => destruct x as [name|] end; cbn [ebind]; [|discriminate];
   match goal with |- context [text_eqb ?ty (L "repeat")] => destruct (text_eqb ty (L "repeat")) end;
   [match goal with |- context [construct_repeat e addp ?r cx] => destruct (construct_repeat e addp r cx) as [[cx2 k2]|] eqn:EC end; cbn [ebind p_kind p_name]; [|discriminate];
     apply HR in EC; destruct k2 as [m| |]; [destruct m; intros H; try discriminate; injection H as <- <-; eauto|discriminate|destruct EC]
   |match goal with |- context [simple_type e ?ty ?r] => destruct (simple_type e ty r) as [[pr [m|]]|] end; cbn [ebind p_kind p_name]; try discriminate;
     destruct m; intros H; try discriminate; injection H as <- <-; eauto]).
Qed.
Lemma built_simple e k rs cx : built e k rs cx -> k <= 255 -> c_types cx = [] -> all_simple (c_nodes cx).
Proof.
  intros HB HK HT. destruct (built_exact e k rs cx HB HK) as (T & _). intros i n p Hn Hp. pose proof (t_flat _ _ T _ _ _ Hn Hp) as HF. rewrite HT in HF. apply flat_simple in HF. exact HF.
Qed.

Lemma flat_simple_type e ts conf m nm : flat_field e ts conf = Some (KSimple m, nm) -> exists typ rest pr, simple_type e typ rest = Some (pr, EOk m).
Proof.
  unfold flat_field, newParser. cbn [c_types set_types].
  set (cx := set_types _ ts). clearbody cx. set (addp := fun _ _ _ => _). clearbody addp.
  destruct (jget conf "type") as [tv|]; [|discriminate].
  assert (HR : forall rest cx' m', construct_repeat e addp rest cx = EOk (cx', KSimple m') -> m' = MNoData (L "repeat")).
  { intros rest cx' k' H. unfold construct_repeat in H. apply ebind_ok in H as ([[[cx1 pn] wn] pe] & _ & H).
    destruct pn, wn; [discriminate| | |]; apply ebind_ok in H as (h1 & _ & H); apply ebind_ok in H as (h2 & _ & H); injection H as _ <-; reflexivity. }
  destruct tv; try discriminate;
  (match goal with |- context [need_str e ?x] => destruct (need_str e x) as [typ|] end; [|discriminate]; cbn [ebind]; cbv zeta;
   match goal with |- context [negb ?b] => destruct b end; cbn [negb]; [|discriminate];
   match goal with |- context [ebind ?x _] => destruct x as [name|] end; cbn [ebind]; [|discriminate];
   match goal with |- context [match ?c with Some ti => EOk (cx, KCustom ti, _) | None => _ end] => destruct c end; cbn [ebind p_kind p_name]; [discriminate|];
   match goal with |- context [text_eqb ?ty (L "repeat")] => destruct (text_eqb ty (L "repeat")) end;
   [match goal with |- context [construct_repeat e addp ?r cx] => destruct (construct_repeat e addp r cx) as [[cx2 k2]|] eqn:EC end; cbn [ebind p_kind p_name]; [|discriminate];
     destruct k2 as [m2| |]; [apply HR in EC; subst m2; discriminate|discriminate|discriminate]
   |match goal with |- context [simple_type e ?ty ?r] => destruct (simple_type e ty r) as [[pr [m2|]]|] eqn:ES end; cbn [ebind p_kind p_name]; try discriminate;
     intros H; assert (m2 = m) by (destruct m2; congruence); subst m2; eauto]).
Qed.
Lemma cstr_nonul s : ~ In NUL (cstr s).
Proof. intros H. induction s as [|c s IH]; [exact H|]. cbn [cstr] in H. destruct (ceq c NUL) eqn:E; [exact H|]. destruct H as [->|H]; [rewrite ceq_refl in E; discriminate|auto]. Qed.
Lemma literal_type_nonul e typ rest pr t : prints_no_nul e -> simple_type e typ rest = Some (pr, EOk (MLiteral t)) -> ~ In NUL t.
Proof.
  intros HE. unfold simple_type.
  match goal with |- (if ?b then _ else _) = _ -> _ => destruct b end.
  - destruct (obj_get rest (L "text")) as [v|]; [|discriminate]. unfold need_str, jstring. destruct v; cbn [ebind]; try discriminate; intros [= _ <-]; try apply HE. apply cstr_nonul.
  - repeat (match goal with |- (if ?b then _ else _) = _ -> _ => destruct b end; [try discriminate|]); try discriminate.
    all: try (match goal with |- context [ebind ?x _] => destruct x as [[]|]; discriminate end).
    all: try (match goal with |- context [ebind ?x _] => destruct x; discriminate end).
    all: try (unfold extradata; destruct (obj_get rest (L "extradata")) as [v|]; [destruct (need_str e v); discriminate|discriminate]).
    all: try (destruct (nv_conf rest) as [[]|]; discriminate).
    unfold construct_string. destruct (string_conf e rest strcfg0) as [[c|]|]; discriminate.
Qed.

Lemma means_fun e conf f g : means e conf f -> means e conf g -> f = g.
Proof. intros A B. specialize (A []). specialize (B []). rewrite A in B. injection B as E1 E2. destruct f, g; cbn in *; congruence. Qed.
Lemma means_fun_all e cs fs gs : Forall2 (means e) cs fs -> Forall2 (means e) cs gs -> fs = gs.
Proof. intros A. revert gs. induction A; intros gs B; inversion B; subst; auto. f_equal; eauto using means_fun. Qed.

Lemma json_dec (a b : json) : {a = b} + {a <> b}.
Proof. destruct (json_eqb a b) eqn:E; [left; apply json_eqb_true; auto|right; intros ->; rewrite json_eqb_same in E; discriminate]. Qed.

Section Ready.
Variable e : env.
Hypothesis HE : prints_no_nul e.

Lemma path_means cx : tidy e cx -> c_types cx = [] -> forall r ps j, path (c_nodes cx) r ps j ->
  exists fs, labels ps = simple_fields fs /\ Forall2 (means e) (confs ps) fs /\ ~ In (AChar NUL) (atoms (labels ps)).
Proof.
  intros T HT r ps j H. induction H as [i|i n p ps j Hi Hp HP IH]; [exists []; split; [reflexivity|split; [constructor|intros []]]|].
  destruct IH as (fs & A & B & C). pose proof (t_flat _ _ T _ _ _ Hi Hp) as HF. rewrite HT in HF. destruct (flat_simple _ _ _ _ HF) as [m Ek].
  exists ((m, p_name p) :: fs). split; [cbn; rewrite Ek; unfold labels, simple_fields in *; congruence|]. split.
  - constructor; auto. intros ts. cbn. rewrite <- Ek. change ts with ([] ++ ts). apply flat_types_app. exact HF.
  - rewrite atoms_cons. intros Hin. apply in_app_or in Hin as [Hin|Hin]; [|auto]. rewrite Ek in *. destruct (atoms_of_field (KSimple m) (p_name p)) as [(t & [= ->] & En)|E].
    + rewrite En in Hin. cbn in Hin. apply in_map_iff in Hin as (x & [= ->] & Hx). apply flat_simple_type in HF as (ty & rest & pr & HS). exact (literal_type_nonul _ _ _ _ _ HE HS Hx).
    + rewrite E in Hin. destruct Hin as [Hin|[]]. discriminate.
Qed.

Lemma path_confs_fields cx ps fs : tidy e cx -> c_types cx = [] -> forall r j, path (c_nodes cx) r ps j -> Forall2 (means e) (confs ps) fs -> labels ps = simple_fields fs.
Proof.
  intros T HT r j HP HF. destruct (path_means cx T HT r ps j HP) as (fs' & A & B & _). rewrite (means_fun_all _ _ _ _ HF B). exact A.
Qed.

Lemma built_hr k rs cx : built e k rs cx -> k <= 255 -> c_types cx = [] ->
  clean (c_nodes cx) (c_root cx) /\
  (forall key cs inf, In (key, cs, inf) rs -> key = None /\ exists fs, Forall2 (means e) cs fs) /\
  forall l inf, hr (c_nodes cx) (c_root cx) l inf <-> exists cs fs, rule_now rs None cs inf /\ Forall2 (means e) cs fs /\ atoms (simple_fields fs) = l.
Proof.
  intros HB HK HT. destruct (built_exact e k rs cx HB HK) as (T & _ & HD & HI). split; [|split].
  - intros l inf (ps & b & n & HP & _ & _ & _ & <-). destruct (path_means cx T HT _ _ _ HP) as (fs & _ & _ & HN). exact HN.
  - intros key cs inf Hin. pose proof (HD _ _ _ Hin) as Hr. destruct key as [nm|]; [cbn in Hr; rewrite HT in Hr; cbn in Hr; congruence|]. split; auto.
    assert (exists inf', rule_now rs None cs inf') as [inf' HR].
    { clear - Hin. induction rs as [|x rs IH] using rev_ind; [destruct Hin|]. destruct x as [[key0 cs0] inf0].
      assert (Dec : (None = key0 /\ cs = cs0) \/ ~ (None = key0 /\ cs = cs0)).
      { destruct key0; [right; intros [? _]; discriminate|]. destruct (list_eq_dec json_dec cs cs0); [left; auto|right; intros [_ ?]; auto]. }
      destruct Dec as [[<- <-]|Hn]; [exists inf0; apply rule_now_snoc; auto|]. apply in_app_or in Hin as [Hin|[[= -> -> ->]|[]]]; [|tauto].
      destruct (IH Hin) as [i Hi]. exists i. apply rule_now_snoc. auto. }
    apply (HI None (c_root cx) eq_refl) in HR as (ps & <- & b & n & HP & _). destruct (path_means cx T HT _ _ _ HP) as (fs & _ & HF & _). eauto.
  - intros l inf. split.
    + intros (ps & b & n & HP & Hb & Ht & Hi & <-). destruct (path_means cx T HT _ _ _ HP) as (fs & HL & HF & _). exists (confs ps), fs. split; [|split; [auto|congruence]].
      apply (HI None (c_root cx) eq_refl). exists ps. split; auto. exists b, n. auto.
    + intros (cs & fs & HR & HF & <-). apply (HI None (c_root cx) eq_refl) in HR as (ps & <- & b & n & HP & Hb & Ht & Hi). exists ps, b, n. split; auto. split; auto. split; auto. split; auto.
      rewrite (path_confs_fields cx ps fs T HT _ _ HP HF). reflexivity.
Qed.
End Ready.
