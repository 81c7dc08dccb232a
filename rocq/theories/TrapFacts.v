(** * TrapFacts: constructing fields misbehaves only where the configuration has a trap. *)
From Verif Require Import Base Parsers Engine Pdag Samp GraphSpec TrapSpec BaseFacts EngineFacts2 HeapFacts DeleteFacts BuildFacts BuildFacts2 BuildFacts3 TypeFacts OptTotal LoadFacts LabelFacts.
From Coq Require Import ZifyBool ZifyNat ZifyN.

Definition tpost {A} (F : ub -> Prop) (Q : A -> Prop) (x : er A) : Prop := match x with EOk a => Q a | EUb u => F u end.
Lemma tpost_bind {A B} F (P : A -> Prop) (Q : B -> Prop) x (f : A -> er B) : tpost F P x -> (forall a, P a -> tpost F Q (f a)) -> tpost F Q (do* a := x in f a).
Proof. destruct x; cbn; auto. Qed.
Lemma tpost_mono {A} F (P Q : A -> Prop) x : tpost F P x -> (forall a, P a -> Q a) -> tpost F Q x.
Proof. destruct x; cbn; auto. Qed.
Lemma tpost_get (F : ub -> Prop) h i : F UseAfterFree -> tpost F (fun n => live h i n) (get_node h i).
Proof. intros H. destruct (get_node h i) as [n|u] eqn:E; [apply get_node_live in E; exact E|]. unfold get_node in E. destruct (nth_error h i) as [[]|]; try discriminate; injection E as <-; exact H. Qed.

Lemma within_trans a b c : within a b -> within b c -> within a c.
Proof. intros H K. induction H; [exact K|eapply wi_elem; eauto|eapply wi_member; eauto]. Qed.
Lemma position_trans a b c : position a b -> position b c -> position a c.
Proof. intros H K. induction H; [exact K|eapply po_elem; eauto|eapply po_member; eauto]. Qed.
Lemma position_within a b : position a b -> within a b.
Proof. induction 1; [apply wi_here|eapply wi_elem; eauto|eapply wi_member; eauto]. Qed.

Section Conf.
Variables (e : env) (root : json) (EX : Prop).
Definition G (u : ub) : Prop := conf_trap e root u \/ u = UseAfterFree \/ u = OutOfFuel.
Lemma G_uaf : G UseAfterFree. Proof. right. auto. Qed.
Lemma G_fuel : G OutOfFuel. Proof. right. auto. Qed.

Definition tr {A} (x : er A) : Prop := tpost G (fun _ => True) x.
Lemma tr_ok {A} (a : A) : tr (EOk a). Proof. exact I. Qed.
Lemma tr_bind {A B} (x : er A) (f : A -> er B) : tr x -> (forall a, tr (f a)) -> tr (do* a := x in f a).
Proof. intros H K. eapply tpost_bind; [exact H|]. intros a _. apply K. Qed.

Lemma need_tr v : within root v -> tr (need_str e v).
Proof. intros H. unfold need_str. destruct v; cbn; try exact I. left. apply ct_null. exact H. Qed.

(** members of an object of the configuration *)
Definition part (l : fields) : Prop := forall k v, In (k, v) l -> within root v.
Lemma part_tail kv l : part (kv :: l) -> part l. Proof. intros H k v Hk. eapply H. right. exact Hk. Qed.
Lemma part_get l k v : part l -> obj_get l k = Some v -> within root v.
Proof. intros H E. apply obj_get_In in E. eapply H; eauto. Qed.
Lemma part_obj l : within root (JObj l) -> part l.
Proof. intros H k v Hk. eapply within_trans; [exact H|]. eapply wi_member; [exact Hk|apply wi_here]. Qed.
Lemma part_incl l l' : incl l' l -> part l -> part l'. Proof. intros Hi H k v Hk. eapply H. apply Hi. exact Hk. Qed.

Lemma fmt_tr fmtof mx0 : forall l f m, part l -> tr (fmt_conf e fmtof mx0 l f m).
Proof.
  induction l as [|[k v] l IH]; intros f m H; cbn [fmt_conf]; [exact I|]. pose proof (part_tail _ _ H) as Ht. pose proof (H k v (or_introl eq_refl)) as Hv.
  destruct (_ && _)%bool; [apply IH; exact Ht|]. destruct (text_eqb k (L "format")); [apply tr_bind; [apply need_tr; exact Hv|]; intros; apply IH; exact Ht|].
  destruct (text_eqb k (L "name")); [apply tr_bind; [apply need_tr; exact Hv|]; intros; apply IH; exact Ht|]. apply IH. exact Ht.
Qed.
Lemma lea_tr : forall l t, part l -> tr (lea_conf e l t).
Proof.
  induction l as [|[k v] l IH]; intros t H; cbn [lea_conf]; [exact I|]. pose proof (part_tail _ _ H) as Ht. pose proof (H k v (or_introl eq_refl)) as Hv.
  destruct (text_eqb _ _); [|apply IH; exact Ht]. apply tr_bind; [apply need_tr; exact Hv|]. intros [|c [|d s]]; [exact I|apply IH; exact Ht|exact I].
Qed.
Lemma extradata_tr typ l mk : part l -> tr (extradata e typ l mk).
Proof. intros H. unfold extradata. destruct (obj_get l _) as [v|] eqn:E; [|exact I]. apply tr_bind; [apply need_tr; eapply part_get; eauto|]. intros; exact I. Qed.

(** [x] stands in matching.permitted of a field *)
Definition permitted (x : json) : Prop := exists l k v, position root (JObj l) /\ caseeq k (L "matching.permitted") = true /\ In (k, v) l /\ within v x.
Lemma perm_tr p s : (exists x, permitted x /\ jstring e x = Some s) \/ ~ eight_bit s -> tr (add_perm e p s).
Proof.
  intros H. unfold add_perm. destruct (char_signed e && existsb _ s)%bool eqn:E; [|exact I]. apply andb_true_iff in E as [E1 E2].
  assert (H8 : eight_bit s). { apply existsb_exists in E2 as (c & Hc & H8). exists c. split; auto. lia. }
  destruct H as [(x & (l & k & v & Hx) & Hs)|H]; [|destruct (H H8)]. left. eapply (ct_eight_bit _ _ l k v x s); tauto.
Qed.
Lemma class_7 s : ~ eight_bit (class_chars s).
Proof.
  assert (X : forall t, forallb (fun c => N.ltb (code c) 128) t = true -> ~ eight_bit t).
  { intros t H (c & Hc & H8). rewrite forallb_forall in H. specialize (H c Hc). lia. }
  apply X. unfold class_chars. repeat (destruct (caseeq s _); [vm_compute; reflexivity|]). reflexivity.
Qed.
Lemma members_tr : forall l p, part l -> (forall k v, In (k, v) l -> permitted v) -> tr (perm_members e l p).
Proof.
  induction l as [|[k v] l IH]; intros p H HP; cbn [perm_members]; [exact I|]. pose proof (part_tail _ _ H) as Ht. pose proof (H k v (or_introl eq_refl)) as Hv.
  pose proof (HP k v (or_introl eq_refl)) as Hv'.
  apply tr_bind; [|intros; apply IH; [exact Ht|intros k' v' Hk; apply (HP k' v'); right; exact Hk]]. destruct (caseeq k _).
  - destruct (jstring e v) as [s|] eqn:E; [|exact I]. apply perm_tr. left. eauto.
  - destruct (caseeq k _); [|exact I]. apply tr_bind; [apply need_tr; exact Hv|]. intros s. apply perm_tr. right. apply class_7.
Qed.
Lemma array_tr l0 k a0 : position root (JObj l0) -> caseeq k (L "matching.permitted") = true -> In (k, JArr a0) l0 -> forall a p, incl a a0 -> tr (perm_array e a p).
Proof.
  intros Hp Hk Hin. induction a as [|x a IH]; intros p Hi; cbn [perm_array]; [exact I|]. assert (Hx : In x a0) by (apply Hi; left; reflexivity).
  assert (HT : (forall m, x <> JObj m) -> tr (EUb UninitRead : er text)) by (intros Hno; left; eapply ct_permitted; eauto).
  destruct x; try (apply HT; discriminate). apply tr_bind; [|intros; apply IH; intros y Hy; apply Hi; right; exact Hy].
  apply members_tr.
  - apply part_obj. eapply within_trans; [apply position_within; exact Hp|]. eapply wi_member; [exact Hin|]. eapply wi_elem; [exact Hx|apply wi_here].
  - intros k' v' Hkv. exists l0, k, (JArr a0). split; [exact Hp|]. split; [exact Hk|]. split; [exact Hin|]. eapply wi_elem; [exact Hx|]. eapply wi_member; [exact Hkv|apply wi_here].
Qed.
Lemma string_tr l0 : position root (JObj l0) -> forall l c, incl l l0 -> tr (string_conf e l c).
Proof.
  intros Hp. pose proof (part_obj _ (position_within _ _ Hp)) as HP.
  induction l as [|[k v] l IH]; intros c Hi; cbn [string_conf]; [exact I|]. assert (Hi' : incl l l0) by (intros y Hy; apply Hi; right; exact Hy).
  assert (Hin : In (k, v) l0) by (apply Hi; left; reflexivity). pose proof (HP _ _ Hin) as Hv. pose proof (fun c => IH c Hi') as IH'. clear IH.
  destruct (caseeq k (L "quoting.mode")). { apply tr_bind; [apply need_tr; exact Hv|]. intros s. cbv zeta. repeat (destruct (caseeq s _); [apply IH'|]). exact I. }
  destruct (caseeq k (L "quoting.escape.mode")). { apply tr_bind; [apply need_tr; exact Hv|]. intros s. cbv zeta. repeat (destruct (caseeq s _); [apply IH'|]). exact I. }
  destruct (caseeq k (L "quoting.char.begin")). { apply tr_bind; [apply need_tr; exact Hv|]. intros [|q [|? ?]]; try exact I; apply IH'. }
  destruct (caseeq k (L "quoting.char.end")). { apply tr_bind; [apply need_tr; exact Hv|]. intros [|q [|? ?]]; try exact I; apply IH'. }
  destruct (caseeq k (L "matching.permitted")) eqn:Ek.
  { apply tr_bind; [|intros; apply IH']. destruct v; try exact I.
    - apply perm_tr. left. exists (JStr s). split; auto. exists l0, k, (JStr s). split; [exact Hp|]. split; [exact Ek|]. split; [exact Hin|apply wi_here].
    - eapply array_tr; eauto. apply incl_refl. }
  destruct (caseeq k (L "matching.mode")). { apply tr_bind; [apply need_tr; exact Hv|]. intros s. cbv zeta. repeat (destruct (caseeq s _); [apply IH'|]). exact I. }
  apply IH'.
Qed.

(** a literal without a text: a trap *)
Definition dataless (m : motif) : Prop := motif_name m = L "literal" /\ forall a, m <> MLiteral a.

Lemma some_pair {A B} (a a' : A) (b b' : B) : Some (a, b) = Some (a', b') -> b = b'.
Proof. congruence. Qed.
Lemma simple_tr typ l0 l pr m : position root (JObj l0) -> incl l l0 -> simple_type e typ l = Some (pr, m) ->
  tpost G (fun m => dataless m -> typ = L "literal" /\ obj_get l (L "text") = None) m.
Proof.
  intros Hp Hi H. pose proof (part_incl _ _ Hi (part_obj _ (position_within _ _ Hp))) as HP. unfold simple_type in H.
  assert (ND : forall m0, motif_name m0 <> L "literal" -> tpost G (fun m => dataless m -> typ = L "literal" /\ obj_get l (L "text") = None) (EOk m0)) by (intros m0 Hn [Hd _]; congruence).
  assert (NB : forall A (x : er A) (f : A -> er motif), tr x -> (forall a, tpost G (fun m => dataless m -> typ = L "literal" /\ obj_get l (L "text") = None) (f a)) -> tpost G (fun m => dataless m -> typ = L "literal" /\ obj_get l (L "text") = None) (do* a := x in f a)).
  { intros A x f Hx Hf. eapply tpost_bind; [exact Hx|]. intros a _. apply Hf. }
  destruct (text_eqb typ (L "literal")) eqn:E0.
  { apply some_pair in H. subst m. apply text_eqb_true in E0. destruct (obj_get l (L "text")) as [v|] eqn:Ev; [|cbn; auto]. apply NB; [apply need_tr; eapply part_get; eauto|]. intros s [_ Hd]. destruct (Hd s eq_refl). }
  clear E0.
  repeat match type of H with (if ?b then _ else _) = _ => destruct b end; try discriminate H; apply some_pair in H; subst m;
    try (apply ND; vm_compute; discriminate);
    try (apply NB; [apply fmt_tr; exact HP|]; intros [f0 m0]; apply ND; vm_compute; discriminate).
  - apply ND. destruct (nv_conf l) as [[? ?]|]; vm_compute; discriminate.
  - apply NB; [apply lea_tr; exact HP|]. intros t. apply ND. vm_compute. discriminate.
  - unfold extradata. destruct (obj_get l (L "extradata")) as [v|] eqn:Ev; [|apply ND; vm_compute; discriminate]. apply NB; [apply need_tr; eapply part_get; eauto|]. intros s. apply ND. vm_compute. discriminate.
  - unfold extradata. destruct (obj_get l (L "extradata")) as [v|] eqn:Ev; [|apply ND; vm_compute; discriminate]. apply NB; [apply need_tr; eapply part_get; eauto|]. intros s. apply ND. vm_compute. discriminate.
  - unfold extradata. destruct (obj_get l (L "extradata")) as [v|] eqn:Ev; [|apply ND; vm_compute; discriminate]. apply NB; [apply need_tr; eapply part_get; eauto|]. intros s. apply ND. vm_compute. discriminate.
  - unfold construct_string. apply NB; [eapply string_tr; eauto|]. intros [c|]; apply ND; vm_compute; discriminate.
Qed.
Lemma simple_known typ l l' : simple_type e typ l <> None -> simple_type e typ l' <> None.
Proof.
  unfold simple_type. repeat match goal with |- context [if ?b then _ else _] => destruct b end; try discriminate. auto.
Qed.

(** ** Inner graphs *)
(** every literal has its text, or there is a trap *)
Definition dd (cx : ctx) : Prop := all_data (c_nodes cx) \/ conf_trap e root NullDeref \/ EX.
Lemma dd_upd cx h : dd cx -> (all_data (c_nodes cx) -> all_data h) -> dd (set_nodes cx h).
Proof. intros [H|H] K; [left; apply K; exact H|right; exact H]. Qed.
Lemma quiet_data h i f : (forall n, n_parsers (f n) = n_parsers n) -> all_data h -> all_data (upd_node h i f).
Proof. intros Hf H j n p Hj Hp. apply live_upd in Hj as [[_ Hj]|[<- (n0 & Hn0 & ->)]]; [eapply H; eauto|]. rewrite Hf in Hp. eapply H; eauto. Qed.
Lemma new_data h : all_data h -> all_data (h ++ [Some new_node]).
Proof. intros H j n p Hj Hp. apply live_app in Hj as [Hj|[-> E]]; [eapply H; eauto|]. injection E as <-. destruct Hp. Qed.

Definition hd (h : list (option node)) : Prop := all_data h \/ conf_trap e root NullDeref \/ EX.
Lemma delete_data : forall f h i, hd h -> tpost G hd (pdagDelete f h i).
Proof.
  induction f as [|f IH]; intros h i H; [apply G_fuel|]. rewrite pdagDelete_unfold. eapply tpost_bind; [apply (tpost_get _ h i); apply G_uaf|]. intros n Hn. cbv zeta.
  assert (H1 : hd (upd_node h i (fun n0 => set_refcnt n0 (n_refcnt n - 1)))) by (destruct H as [H|H]; [left; apply quiet_data; auto|right; exact H]).
  destruct (Z.ltb 0 _); [exact H1|].
  assert (HL : forall l h, hd h -> tpost G hd (del_list f h l)).
  { clear - IH. induction l as [|t l IHl]; intros h H; cbn [del_list]; [exact H|]. eapply tpost_bind; [apply IH; exact H|]. intros h1 A. apply IHl. exact A. }
  eapply tpost_bind; [apply HL; exact H1|]. intros h2 A. unfold free_node. eapply tpost_bind; [apply (tpost_get _ h2 i); apply G_uaf|]. intros _ _.
  cbn. destruct A as [A|A]; [left; apply free_data; exact A|right; exact A].
Qed.

Definition addp_tr (addp : ctx -> nat -> json -> er (ctx * option (option nat))) : Prop :=
  forall cx d j, position root j -> dd cx -> tpost G (fun x => dd (fst x) /\ match snd x with Some None => conf_trap e root NullDeref | _ => True end) (addp cx d j).

Section Step.
Variable addp : ctx -> nat -> json -> er (ctx * option (option nat)).
Hypothesis HA : addp_tr addp.

Lemma dots_tr v : within root v -> tr (chkNoDupeDot e v).
Proof.
  intros H. unfold chkNoDupeDot. destruct v; try exact I. apply tr_bind; [|intros; exact I].
  assert (HE : forall x, In x l -> within root x) by (intros x Hx; eapply within_trans; [exact H|]; eapply wi_elem; [exact Hx|apply wi_here]). clear H.
  induction l as [|j l IH]; cbn [count_dots]; [exact I|]. apply tr_bind; [|intros; apply tr_bind; [apply IH; intros x Hx; apply HE; right; exact Hx|intros; exact I]].
  unfold is_dot. destruct (jget j "name") as [v|] eqn:E; [|exact I]. assert (Hv : within root v).
  { destruct j; cbn in E; try discriminate. apply obj_get_In in E. eapply within_trans; [apply HE; left; reflexivity|]. eapply wi_member; [exact E|apply wi_here]. }
  destruct v; try exact I; (apply tr_bind; [apply need_tr; exact Hv|intros; exact I]).
Qed.

Lemma repeat_conf_tr l0 : position root (JObj l0) -> forall l pn wn permit cx, incl l l0 -> dd cx ->
  tpost G (fun x => dd (fst (fst (fst x)))) (repeat_conf e addp l pn wn permit cx).
Proof.
  intros Hp. induction l as [|[k v] l IH]; intros pn wn permit cx Hi H; cbn [repeat_conf]; [exact H|].
  assert (Hi' : incl l l0) by (intros y Hy; apply Hi; right; exact Hy). assert (Hin : In (k, v) l0) by (apply Hi; left; reflexivity).
  assert (Hw : within root v) by (eapply within_trans; [apply position_within; exact Hp|]; eapply wi_member; [exact Hin|apply wi_here]).
  assert (HN : k = L "parser" \/ k = L "while" -> forall (cont stop : ctx -> er (ctx * option nat * option nat * bool)),
    (forall cx', dd cx' -> tpost G (fun x => dd (fst (fst (fst x)))) (cont cx')) -> (forall cx', dd cx' -> tpost G (fun x => dd (fst (fst (fst x)))) (stop cx')) ->
    tpost G (fun x => dd (fst (fst (fst x)))) (do* (cx', en) := addp (set_nodes cx (c_nodes cx ++ [Some new_node])) (List.length (c_nodes cx)) v in
        match en with None => stop cx' | Some None => EUb NullDeref | Some (Some en) => cont (set_nodes cx' (upd_node (c_nodes cx') en set_term)) end)).
  { intros Hk cont stop Hc Hs. eapply tpost_bind; [apply HA|].
    - eapply position_trans; [exact Hp|]. eapply po_member; [exact Hin|exact Hk|apply po_here].
    - apply dd_upd; [exact H|]. apply new_data.
    - intros [cx' en] [A B]. cbn [fst snd] in *. destruct en as [[en|]|]; [|left; exact B|apply Hs; exact A]. apply Hc. apply dd_upd; [exact A|]. apply quiet_data. reflexivity. }
  destruct (text_eqb k (L "parser")) eqn:E1.
  - apply text_eqb_true in E1. eapply (tpost_bind _ (fun _ => True)); [apply dots_tr; exact Hw|]. intros good _. destruct (negb good); [exact H|]. unfold newPDAG.
    apply HN; [auto|intros cx' H'; apply IH; auto|]. intros cx' H'. exact H'.
  - destruct (text_eqb k (L "while")) eqn:E2.
    + apply text_eqb_true in E2. unfold newPDAG. apply HN; [auto|intros cx' H'; apply IH; auto|]. intros cx' H'. exact H'.
    + destruct (caseeq k _); apply IH; auto.
Qed.
Lemma construct_repeat_tr l0 l cx : position root (JObj l0) -> incl l l0 -> dd cx -> tpost G (fun x => dd (fst x) /\ parserName (snd x) <> L "literal") (construct_repeat e addp l cx).
Proof.
  intros Hp Hi H. unfold construct_repeat. pose proof (repeat_conf_tr l0 Hp l None None false cx Hi H) as HR.
  destruct (repeat_conf e addp l None None false cx) as [[[[cx1 pn] wn] permit]|u]; [|exact HR]. cbn [ebind tpost fst snd] in *.
  assert (HD : forall h o, hd h -> tpost G hd (match o with None => EOk h | Some n => pdagDelete (heap_fuel h) h n end)).
  { intros h [n|] Hh; [apply delete_data; exact Hh|exact Hh]. }
  assert (HF : tpost G (fun x => dd (fst x) /\ parserName (snd x) <> L "literal") (let del (h : list (option node)) o :=
        match o with None => EOk h | Some n => pdagDelete (heap_fuel h) h n end in
      do* h := del (c_nodes cx1) pn in do* h := del h wn in EOk (set_nodes cx1 h, KSimple (MNoData (L "repeat"))))).
  { cbv zeta. eapply tpost_bind; [apply HD; exact HR|]. intros h1 A1. eapply tpost_bind; [apply HD; exact A1|]. intros h2 A2. cbn. split; [exact A2|discriminate]. }
  destruct pn as [p|]; [destruct wn as [w|]|]; [|exact HF|exact HF]. cbn. split; [exact HR|discriminate].
Qed.

(** the new field has its text, or there is a trap *)
Definition pd (p : prs) : Prop := has_data p \/ conf_trap e root NullDeref.
Lemma not_literal k n cf pr c : parserName k <> L "literal" -> pd {| p_kind := k; p_name := n; p_conf := cf; p_prio := pr; p_child := c |}.
Proof. intros H. left. intros E. unfold is_lit in E. apply text_eqb_true in E. destruct (H E). Qed.

Lemma newParser_tr conf cx : position root conf -> dd cx -> tpost G (fun x => dd (fst x) /\ forall p, snd x = Some p -> pd p) (newParser e addp cx conf).
Proof.
  intros Hp H. unfold newParser. destruct (jget conf "type") as [tv|] eqn:ET; [|cbn; split; [exact H|discriminate]].
  destruct conf as [| | | | | |l]; try discriminate ET. cbn [jget] in ET. pose proof (part_obj _ (position_within _ _ Hp)) as HP.
  assert (X : forall r, (forall typ, jstring e tv = Some typ -> tpost G (fun x => dd (fst x) /\ forall p, snd x = Some p -> pd p) (r typ)) ->
    tpost G (fun x => dd (fst x) /\ forall p, snd x = Some p -> pd p) (match tv with JNull => EOk (cx, None) | _ => do* typ := need_str e tv in r typ end)).
  { intros r Hr. unfold need_str. destruct tv; [cbn; split; [exact H|discriminate]|..]; (apply Hr; reflexivity). }
  apply X. clear X. intros typ Etyp. cbv zeta.
  set (custom := match typ with c :: _ => ceq c "@" | [] => false end).
  set (cust := if custom then findType (c_types cx) typ 0 else None).
  destruct (negb _) eqn:EK; [cbn; split; [exact H|discriminate]|]. apply negb_false_iff in EK.
  eapply (tpost_bind _ (fun _ => True)).
  { destruct (jget (JObj l) "name") as [v|] eqn:EN; [|exact I]. pose proof (part_get _ _ _ HP EN) as Hv. destruct v; try exact I; (apply tr_bind; [apply need_tr; exact Hv|intros; exact I]). }
  intros nm _. set (rest := match nm with Some _ => _ | None => _ end).
  assert (Hinc : incl rest l). { unfold rest. destruct nm; repeat (eapply incl_tran; [apply obj_del_incl|]); apply incl_refl. }
  assert (Htext : obj_get rest (L "text") = obj_get l (L "text")).
  { unfold rest. destruct nm; rewrite !obj_get_del by reflexivity; reflexivity. }
  clearbody rest. eapply (tpost_bind _ (fun x => dd (fst (fst x)) /\ (parserName (snd (fst x)) = L "literal" -> (exists a, snd (fst x) = KSimple (MLiteral a)) \/ conf_trap e root NullDeref))).
  - assert (E2 : cust = None \/ exists ti, cust = Some ti) by (destruct cust; eauto). destruct E2 as [E2|[ti E2]]; rewrite E2 in *.
    + destruct (text_eqb typ (L "repeat")) eqn:ER.
      * eapply tpost_bind; [eapply construct_repeat_tr; eauto|]. intros [cx1 k] [A B]. cbn [tpost fst snd] in *. split; [exact A|]. intros K. destruct (B K).
      * destruct (simple_type e typ rest) as [[prio m]|] eqn:ES.
        -- pose proof (simple_tr typ l rest prio m Hp Hinc ES) as HM. eapply tpost_bind; [exact HM|]. intros m1 Hm1. cbn [tpost fst snd parserName]. split; [exact H|]. intros Hn.
           destruct m1; try (left; eexists; reflexivity); try discriminate Hn; right.
           destruct (Hm1 ltac:(split; [exact Hn|discriminate])) as [-> Hno]. eapply ct_literal; eauto. congruence.
        -- exfalso. destruct custom; [discriminate|]. cbn [orb] in EK. destruct (simple_type e typ []) eqn:E3; [|discriminate]. eapply (simple_known typ [] rest); [congruence|exact ES].
    + cbn. split; [exact H|discriminate].
  - intros [[cx1 k] prio] [A B]. cbn [tpost fst snd] in *. split; [exact A|]. intros p [= <-]. destruct (text_eqb (parserName k) (L "literal")) eqn:EL.
    + apply text_eqb_true in EL. destruct (B EL) as [[a ->]|HT]; [left; intros _; exists a; reflexivity|right; exact HT].
    + apply not_literal. intros K. rewrite K, text_eqb_refl in EL. discriminate.
Qed.

Definition T : Prop := conf_trap e root NullDeref.
Definition there (o : option nat) : Prop := o <> None \/ T.
Lemma addInstance_tr conf dag next cx : there dag -> position root conf -> dd cx -> tpost G (fun x => dd (fst x)) (addInstance e addp cx conf dag next).
Proof.
  intros HD Hp H. unfold addInstance. eapply tpost_bind; [apply newParser_tr; eauto|]. intros [cx1 [p|]] [A B]; cbn [fst snd] in *; [|exact A]. specialize (B p eq_refl).
  destruct dag as [d|]; [clear HD|left; destruct HD as [HD|HD]; [congruence|exact HD]].
  eapply tpost_bind; [apply (tpost_get _ (c_nodes cx1) d); apply G_uaf|]. intros n Hn. destruct (find_same _ _ _) as [child|].
  - eapply (tpost_bind _ hd).
    { destruct (p_kind p) as [m|a b pm|ti]; try exact A. eapply tpost_bind; [apply delete_data; exact A|]. intros h Hh. apply delete_data. exact Hh. }
    intros h Hh. exact Hh.
  - eapply (tpost_bind _ (fun x => dd (fst x))).
    { destruct next as [nn|]; [|cbn; apply dd_upd; [exact A|apply new_data]]. eapply tpost_bind; [apply (tpost_get _ (c_nodes cx1) nn); apply G_uaf|]. intros m _. cbn. apply dd_upd; [exact A|]. apply quiet_data. reflexivity. }
    intros [cx2 nn] A2. cbn [fst snd tpost] in *. destruct A2 as [A2|A2]; [|right; exact A2]. destruct B as [B|B]; [|right; left; exact B]. left.
    cbn. intros j m q Hj Hq. apply live_upd in Hj as [[_ Hj]|[<- (n0 & Hn0 & ->)]]; [eapply A2; eauto|]. cbn in Hq. unfold push_parser in Hq. destruct (Nat.eqb _ 255); [destruct Hq|].
    apply in_app_or in Hq as [Hq|[<-|[]]]; [eapply A2; eauto|]. exact B.
Qed.

Definition both (r : option (option nat * option nat)) : Prop := match r with None => True | Some (a, b) => there a /\ there b end.
Definition inner_tr (inner : ctx -> amode -> option nat -> json -> option nat -> ares) : Prop :=
  forall cx mode dag l next, there dag -> position root (JArr l) -> dd cx -> tpost G (fun x => dd (fst x) /\ both (snd x)) (inner cx mode dag (JArr l) next).

Definition fine (mode : amode) (r : option (option nat * option nat)) : Prop := match mode with Seq => both r | Alt => match r with Some (a, _) => there a | _ => True end end.
Lemma loop_tr inner : inner_tr inner -> forall l mode dag next pnext cx, there dag -> (forall x, In x l -> position root x) ->
  (l = [] -> match mode with Seq => there pnext | Alt => there next end) -> dd cx ->
  tpost G (fun x => dd (fst x) /\ fine mode (snd x)) (addParsers_loop e addp inner cx mode l dag next pnext).
Proof.
  intros HI. induction l as [|j l IH]; intros mode dag next pnext cx HD Hl H0 H; cbn [addParsers_loop].
  - specialize (H0 eq_refl). destruct mode; cbn; (split; [exact H|]); [split; auto|exact H0].
  - assert (Hj : position root j) by (apply Hl; left; reflexivity). assert (Hl' : forall x, In x l -> position root x) by (intros x Hx; apply Hl; right; exact Hx).
    eapply (tpost_bind _ (fun x => dd (fst x) /\ match snd x with None => True | Some (d1, n1) => there d1 /\ there n1 end)).
    + assert (X : tpost G (fun x => dd (fst x) /\ match snd x with None => True | Some (d1, n1) => there d1 /\ there n1 end)
        (do* (cx, r) := addInstance e addp cx j dag next in EOk (cx, match r with None => None | Some nx => Some (dag, Some nx) end))).
      { eapply tpost_bind; [apply addInstance_tr; eauto|]. intros [cx1 [nx|]] A; cbn in *; auto. split; auto. split; [exact HD|left; discriminate]. }
      destruct j as [| | | | |l0|]; try exact X. clear X. eapply tpost_bind; [apply (HI cx mode dag l0 next HD Hj H)|]. intros [cx1 [[ld nx]|]] [A B]; cbn in *; auto. split; auto.
      destruct B as [B1 B2]. split; [destruct mode; auto|exact B2].
    + intros [cx1 [[d1 n1]|]] [A B]; cbn [fst snd] in *.
      * destruct B as [B1 B2]. destruct mode; apply IH; auto.
      * cbn. split; [exact A|]. destruct mode; exact I.
Qed.

Lemma step_inner inner : inner_tr inner -> inner_tr (addInternal_step e addp inner).
Proof.
  intros HI cx mode d l next HD Hp H. cbn [addInternal_step]. apply (loop_tr inner HI l Seq); [exact HD| |intros ->; right; apply ct_empty; exact Hp|exact H].
  intros y Hy. eapply position_trans; [exact Hp|]. eapply po_elem; [exact Hy|apply po_here].
Qed.
Lemma step_any inner cx d conf : inner_tr inner -> position root conf -> dd cx ->
  tpost G (fun x => dd (fst x) /\ match snd x with Some (a, _) => there a | _ => True end) (addInternal_step e addp inner cx Seq (Some d) conf None).
Proof.
  intros HI Hp H. assert (HD : there (Some d)) by (left; discriminate). destruct conf as [| | | | |a|l]; try (cbn; split; [exact H|exact I]).
  - eapply tpost_mono; [apply (step_inner inner HI cx Seq (Some d) a None HD Hp H)|]. intros [cx1 [[x y]|]] [A B]; cbn in *; tauto.
  - cbn [addInternal_step jget]. destruct (obj_get l (L "type")) as [tv|] eqn:ET; [|cbn; left; eapply ct_untyped; eauto].
    pose proof (part_obj _ (position_within _ _ Hp)) as HP. pose proof (part_get _ _ _ HP ET) as Hv.
    assert (X : forall r, (forall typ, tpost G (fun x => dd (fst x) /\ match snd x with Some (a, _) => there a | _ => True end) (r typ)) ->
      tpost G (fun x => dd (fst x) /\ match snd x with Some (a, _) => there a | _ => True end) (match tv with JNull => EUb NullDeref | _ => do* typ := need_str e tv in r typ end : ares)).
    { intros r Hr. destruct tv; [cbn; left; apply ct_null; exact Hv|..]; (eapply tpost_bind; [apply need_tr; exact Hv|]; intros typ _; apply Hr). }
    apply X. clear X. intros typ. destruct (text_eqb typ _).
    + destruct (obj_get l (L "parser")) as [v|] eqn:EPs; [|cbn; auto]. destruct v as [| | | | |ps|]; try (cbn; auto; fail).
      assert (Hps : position root (JArr ps)). { eapply position_trans; [exact Hp|]. eapply po_member; [apply obj_get_In; exact EPs|auto|apply po_here]. }
      apply (loop_tr inner HI ps Alt); [exact HD| |intros ->; right; apply ct_empty; exact Hps|exact H].
      intros y Hy. eapply position_trans; [exact Hps|]. eapply po_elem; [exact Hy|apply po_here].
    + eapply tpost_bind; [apply addInstance_tr; eauto|]. intros [cx1 [nx|]] A; cbn in *; auto. split; auto. left. discriminate.
Qed.
End Step.

Lemma internal_tr : forall f, inner_tr (addInternal e f) /\
  forall cx d conf, position root conf -> dd cx -> tpost G (fun x => dd (fst x) /\ match snd x with Some (a, _) => there a | _ => True end) (addInternal e f cx Seq (Some d) conf None).
Proof.
  induction f as [|f [IH1 IH2]]; [split; [intros ? ? ? ? ? ? ? ?|intros ? ? ? ? ?]; exact G_fuel|].
  assert (HA : addp_tr (fun cx d j => do* (cx, r) := addInternal e f cx Seq (Some d) j None in EOk (cx, match r with None => None | Some (en, _) => Some en end))).
  { intros cx d j Hp H. eapply tpost_bind; [apply (IH2 cx d j Hp H)|]. intros [cx1 [[[a|] b]|]] [A B]; cbn in *; auto. split; auto. destruct B as [B|B]; [congruence|exact B]. }
  split; [exact (step_inner _ HA _ IH1)|intros cx d conf; apply (step_any _ HA _ cx d conf IH1)].
Qed.
Lemma addParser_tr cx d : dd cx -> tpost G (fun x => dd (fst x) /\ (snd x = Some None -> T)) (addParser e cx d root).
Proof.
  intros H. unfold addParser. eapply tpost_bind; [apply internal_tr; [apply po_here|exact H]|]. intros [cx1 [[a b]|]] [A B]; cbn in *; (split; [exact A|]); [|discriminate].
  intros [= ->]. destruct B as [B|B]; [congruence|exact B].
Qed.
End Conf.
