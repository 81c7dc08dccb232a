(** * Prop_Trap2: C87 -- rules whose fields are written as name, type and extra data never make
    loading misbehave. *)
From Verif Require Import Base Time Parsers Engine Pdag Samp GraphSpec History SafetySpec TrapSpec SynSpec SynFacts BaseFacts LoadFacts LoadTop NormSafe TrapTop Prop_Graph Prop_Trap TestEnv.
From Coq Require Import ZifyBool ZifyNat ZifyN.

(** Name and type of a field *)
Definition plain_name (n : text) : Prop :=
  n <> [] /\ (N.of_nat (List.length n) < 1023)%N /\ forall c, In c n -> isspace c = false /\ ~ In c (L ":%{[").
Definition plain_type (t : text) : Prop :=
  t <> L "literal" /\ forall c, In c t -> isspace c = false /\ c <> NUL /\ ~ In c (L ":%{").
(** Rules of literals and of fields %name:type% and %name:type:extra data%; in literals every
    '%' is written twice. *)
Inductive simple_rule : text -> Prop :=
| sr_end : forall l, literal_run l -> simple_rule l
| sr_field : forall l n t r, literal_run l -> plain_name n -> plain_type t -> simple_rule r ->
    simple_rule (l ++ L "%" ++ n ++ L ":" ++ t ++ L "%" ++ r)
| sr_extra : forall l n t x r, literal_run l -> plain_name n -> plain_type t -> ~ In "%"%char x -> simple_rule r ->
    simple_rule (l ++ L "%" ++ n ++ L ":" ++ t ++ L ":" ++ x ++ L "%" ++ r).

Lemma run_split l : literal_run l -> forall z l' c u, literal_run l' -> c <> "%"%char ->
  (z = [] \/ exists c' u', z = "%"%char :: c' :: u' /\ c' <> "%"%char) -> l ++ z = l' ++ "%"%char :: c :: u -> l = l' /\ z = "%"%char :: c :: u.
Proof.
  induction 1 as [|c0 l Hc0 Hl IH|l Hl IH]; intros z l' c u Hl' Hc Hz E.
  - cbn [app] in E. subst z. destruct Hl' as [|d l' Hd _|l' _]; [auto| |]; destruct Hz as [Hz|(c' & u' & Hz & Hc')]; try discriminate Hz; injection Hz; intros; subst; congruence.
  - destruct Hl' as [|d l' Hd Hl'|l' Hl']; cbn [app] in E; injection E; intros; subst; try congruence. match goal with K : l ++ z = _ |- _ => destruct (IH _ _ _ _ Hl' Hc Hz K) as [-> ->] end; auto.
  - destruct Hl' as [|d l' Hd Hl'|l' Hl']; cbn [app] in E; injection E; intros; subst; try congruence. match goal with K : l ++ z = _ |- _ => destruct (IH _ _ _ _ Hl' Hc Hz K) as [-> ->] end; auto.
Qed.
Lemma span_eq (P : ascii -> Prop) : forall a b c d u v, (forall x, In x a -> P x) -> (forall x, In x b -> P x) -> ~ P c -> ~ P d ->
  a ++ c :: u = b ++ d :: v -> a = b /\ c = d /\ u = v.
Proof.
  induction a as [|x a IH]; intros [|y b] c d u v Ha Hb Hc Hd E; cbn [app] in E; injection E; intros; subst.
  - auto.
  - destruct Hc. apply Hb. left. reflexivity.
  - destruct Hd. apply Ha. left. reflexivity.
  - edestruct (IH b c d u v) as (-> & -> & ->); auto; intros; [apply Ha|apply Hb]; right; assumption.
Qed.

(** what the description of such a field is *)
Definition simple_conf (e : env) (n t : text) (x : option text) : json :=
  JObj (match x with Some x => with_extra e (base n t) x | None => base n t end).
Lemma simple_desc e n t w r x : plain_name n -> plain_type t -> data_tail w r x -> (exists c w', w = c :: w' /\ (c = ":"%char \/ c = "%"%char)) ->
  fieldDescr e ("%"%char :: n ++ L ":" ++ t ++ w) = Ok (r, simple_conf e n t x).
Proof.
  intros (Hn0 & HnL & Hn) (Ht0 & Ht) Hd (c & w' & -> & Hc). apply fieldDescr_ok.
  change (simple_conf e n t x) with (JObj (put_all (match x with Some x => with_extra e (base n t) x | None => base n t end) (match (None : option json) with Some (JObj ms) => ms | _ => [] end))).
  apply (de_field e [] n t [] (c :: w') r None x).
  - constructor.
  - destruct n as [|d n]; [congruence|]. exists d, n. destruct (Hn d (or_introl eq_refl)) as [H1 H2]. split; [reflexivity|]. split; [exact H1|]. split; intros ->; apply H2; cbn; auto 8.
  - intros d Hd1 Hd2. apply (proj2 (Hn d Hd1)). cbn in Hd2 |- *. tauto.
  - exact HnL.
  - rewrite app_nil_r. intros d Hd1 Hd2. apply (proj2 (proj2 (Ht d Hd1))). cbn in Hd2 |- *. tauto.
  - constructor.
  - intros s d E. subst t. apply Ht. apply in_or_app. right. left. reflexivity.
  - apply pt_plain; [|exact Hd]. intros w0 [= -> _]. destruct Hc; discriminate.
  - exists c, w'. split; [reflexivity|]. cbn. destruct Hc; auto.
Qed.

Lemma simple_no_trap e n t x u : plain_type t -> ~ conf_trap e (simple_conf e n t x) u.
Proof.
  intros (Ht0 & Ht) H.
  assert (HF : filter (fun c => negb (ceq c NUL)) t = t).
  { clear - Ht. induction t as [|c t IH]; [reflexivity|]. cbn [filter]. destruct (ceq c NUL) eqn:E; [apply ceq_true in E; destruct (Ht c (or_introl eq_refl)) as (_ & H & _); congruence|]. cbn [negb]. f_equal. apply IH. intros d Hd. apply Ht. right. exact Hd. }
  assert (HL : exists l, simple_conf e n t x = JObj l /\ obj_get l (L "type") = Some (JStr t) /\ (forall k v, In (k, v) l -> (exists s, v = JStr s) /\ (k = L "name" \/ k = L "type" \/ k = L "extradata"))).
  { unfold simple_conf, with_extra, base. rewrite HF. destruct x as [x|]; eexists; (split; [reflexivity|split; [reflexivity|]]); cbn; intros k v Hi; repeat (destruct Hi as [Hi|Hi]; [injection Hi as <- <-; split; [eauto|auto]|]); destruct Hi. }
  destruct HL as (l & HE & HT & HM). rewrite HE in H. clear HE.
  assert (HP : forall y, position (JObj l) y -> y = JObj l).
  { intros y Hy. inversion Hy as [|? ? ? ? ?|l1 k z y' Hi Hk Hz]; subst; [reflexivity|]. apply HM in Hi as [_ [-> | [-> | -> ]]]; destruct Hk as [Hk|Hk]; discriminate Hk. }
  destruct H as [H|l' H HG|H|l' tv H HG HJ HX|l' k a y H Hk Hi Hy Hm|l' k v y s _ H Hk Hi Hy Hs H8].
  - inversion H as [|? ? ? ? ?|l1 k z y' Hi Hz]; subst. apply HM in Hi as [[s ->] _]. inversion Hz.
  - apply HP in H. injection H as ->. congruence.
  - apply HP in H. discriminate.
  - apply HP in H. injection H as ->. rewrite HT in HG. injection HG as <-. cbn [jstring] in HJ. injection HJ as HJ. destruct Ht0. rewrite cstr_nonul in HJ; [exact HJ|]. intros Hi. destruct (Ht _ Hi) as (_ & H0 & _). congruence.
  - apply HP in H. injection H as ->. apply HM in Hi as [[s Hs] _]. discriminate.
  - apply HP in H. injection H as ->. apply HM in Hi as [_ [-> | [-> | -> ]]]; vm_compute in Hk; discriminate Hk.
Qed.

Lemma simple_not_unfinished e n t c w : plain_name n -> plain_type t -> (c = ":"%char \/ c = "%"%char) -> ~ unfinished e ("%"%char :: n ++ L ":" ++ t ++ c :: w).
Proof.
  intros (Hn0 & _ & Hn) (_ & Ht) Hc [(b & E & Hb)|(a & t' & js & E & Ha & Ht' & (js' & ->) & _)].
  - destruct n as [|d n]; [congruence|]. injection E as <-. inversion Hb; subst. destruct (Hn d (or_introl eq_refl)) as [H _]. congruence.
  - injection E as E. cbn [L app] in E. apply (span_eq (fun x => x <> ":"%char)) in E as (-> & _ & E).
    + apply (span_eq (fun x => ~ In x (L ":{%"))) in E as (_ & -> & _); [destruct Hc; discriminate| |exact Ht'| |].
      * intros y Hy Hi. apply (proj2 (proj2 (Ht y Hy))). cbn in Hi |- *. tauto.
      * intros H. apply H. cbn. destruct Hc as [-> | ->]; auto.
      * intros H. apply H. cbn. auto.
    + intros y Hy ->. apply (proj2 (Hn _ Hy)). cbn. auto.
    + intros y Hy ->. exact (Ha Hy).
    + congruence.
    + congruence.
Qed.

Lemma simple_opens e r : simple_rule r -> forall w, opens_at e r w ->
  ~ unfinished e w /\ forall rest conf u, fieldDescr e w = Ok (rest, conf) -> ~ conf_trap e conf u.
Proof.
  assert (HC : forall l n t x w1 r1, literal_run l -> plain_name n -> plain_type t -> data_tail w1 r1 x -> (exists c w', w1 = c :: w' /\ (c = ":"%char \/ c = "%"%char)) ->
    (forall w, opens_at e r1 w -> ~ unfinished e w /\ forall rest conf u, fieldDescr e w = Ok (rest, conf) -> ~ conf_trap e conf u) ->
    forall w, opens_at e (l ++ "%"%char :: n ++ L ":" ++ t ++ w1) w -> ~ unfinished e w /\ forall rest conf u, fieldDescr e w = Ok (rest, conf) -> ~ conf_trap e conf u).
  { intros l n t x w1 r1 Hl Hn Ht Hd Hw IH w Ho.
    pose proof (simple_desc e n t w1 r1 x Hn Ht Hd Hw) as HD.
    assert (HZ : exists c' u', "%"%char :: n ++ L ":" ++ t ++ w1 = "%"%char :: c' :: u' /\ c' <> "%"%char).
    { destruct Hn as (Hn0 & _ & Hn). destruct n as [|d n]; [congruence|]. eexists d, _. split; [reflexivity|]. intros ->. apply (proj2 (Hn _ (or_introl eq_refl))). cbn. auto. }
    remember ("%"%char :: n ++ L ":" ++ t ++ w1) as z eqn:Ez. inversion Ho as [l' c u Hl' Hc E1 E2|l' c u rest conf w' Hl' Hc Hf Ho' E1 E2]; subst w.
    - symmetry in E1. apply (run_split l Hl) in E1 as [_ E1]; auto. rewrite <- E1. split.
      + rewrite Ez. destruct Hw as (d & w' & -> & Hd'). apply simple_not_unfinished; auto.
      + intros rest conf u' HF. rewrite HD in HF. injection HF as _ <-. apply simple_no_trap. exact Ht.
    - symmetry in E1. apply (run_split l Hl) in E1 as [_ E1]; auto. rewrite <- E1, HD in Hf. injection Hf as <- _. apply IH. exact Ho'. }
  induction 1 as [l Hl|l n t r Hl Hn Ht Hr IH|l n t x r Hl Hn Ht Hx Hr IH]; intros w Ho.
  - exfalso. inversion Ho as [l' c u Hl' Hc E1 E2|l' c u rest conf w' Hl' Hc Hf Ho' E1 E2]; rewrite <- (app_nil_r l) in E1; symmetry in E1; apply (run_split l Hl) in E1 as [_ E1]; auto; discriminate.
  - eapply (HC l n t None (L "%" ++ r) r); eauto; [apply dt_none|]. exists "%"%char, r. auto.
  - eapply (HC l n t (Some x) (L ":" ++ x ++ L "%" ++ r) r); eauto.
    + apply (dt_extra ":"%char x r); [discriminate|]. intros c Hi [<-|[]]. exact (Hx Hi).
    + exists ":"%char, (x ++ L "%" ++ r). auto.
Qed.

(** When all rules and types are of this kind, whatever can go wrong is in another line: an
    extendprefix line without a prefix, an include line without a file name, an empty tag, an
    annotate line that ends in a blank. *)
Theorem C87_simple_rules : forall e p0 Ln u, (forall r, rule_of p0 Ln r -> simple_rule r) -> load_trap e p0 Ln u ->
  (p0 = None /\ exists v, says Ln "extendprefix" v) \/
  (exists v, says Ln "include" v /\ (v = [] \/ exists v', v = NUL :: v')) \/
  (exists a b, says Ln "rule" (a ++ L "," ++ b) /\ ~ In ":"%char a /\ (a = [] \/ exists a', a = a' ++ L ",")) \/
  (exists v c, says Ln "annotate" (v ++ [c]) /\ isspace c = true).
Proof.
  intros e p0 Ln u HS H. destruct H as [v Hp Hv|v Hv Hn|a b Hl Ha Hb|r w Hr Ho Hw|r w rest conf u Hr Ho Hf Hc|v c Hl Hc].
  - left. eauto.
  - right. left. eauto.
  - right. right. left. eauto.
  - exfalso. exact (proj1 (simple_opens e r (HS _ Hr) w Ho) Hw).
  - exfalso. exact (proj2 (simple_opens e r (HS _ Hr) _ Ho) _ _ _ Hf Hc).
  - right. right. right. eauto.
Qed.
Print Assumptions C87_simple_rules.

(** So loading such a rulebase returns. *)
Theorem C87_simple_rules_load : forall e q cx, permutes q -> history e q cx -> texts_there cx ->
  forall fuel s, fits e (cstr s) fuel -> let Ln := a_line e (cstr s) in
  (forall r, rule_of (c_prefix cx) Ln r -> simple_rule r) ->
  (c_prefix cx = None -> forall v, ~ says Ln "extendprefix" v) ->
  (forall v, says Ln "include" v -> exists c v', v = c :: v' /\ c <> NUL) ->
  (forall a b, says Ln "rule" (a ++ L "," ++ b) -> ~ In ":"%char a -> a <> [] /\ forall a', a <> a' ++ L ",") ->
  (forall v c, says Ln "annotate" (v ++ [c]) -> isspace c = false) ->
  exists cx' ok, loadString e q fuel cx s = EOk (cx', ok) /\ texts_there cx'.
Proof.
  intros e q cx HQ H HT fuel s Hf Ln HR HX HI HG HA.
  assert (HN : forall u, ~ load_trap e (c_prefix cx) Ln u).
  { intros u HU. apply C87_simple_rules in HU as [(Hp & v & Hv)|[(v & Hv & Hn)|[(a & b & Hl & Ha & Hb)|(v & c & Hl & Hc)]]]; [| | | |exact HR].
    - exact (HX Hp v Hv).
    - apply HI in Hv as (c & v' & -> & Hc). destruct Hn as [Hn|(v0 & Hn)]; [discriminate|]. injection Hn. intros. congruence.
    - apply HG in Hl as [H1 H2]; [|exact Ha]. destruct Hb as [Hb|(a' & Hb)]; [exact (H1 Hb)|exact (H2 _ Hb)].
    - apply HA in Hl. congruence. }
  destruct (loadString e q fuel cx s) as [[cx' ok]|u] eqn:E.
  - exists cx', ok. split; [reflexivity|]. eapply C87_texts_stay; eauto.
  - exfalso. exact (HN u (C87_string e q cx HQ H HT fuel s u Hf E)).
Qed.
Print Assumptions C87_simple_rules_load.

(** ** Example: a rule with three fields *)
From Coq Require Import String.
Local Open Scope string_scope.
Local Open Scope list_scope.
Definition ex_rule : text := L "100%% of %n:number% at %h:char-to:;% {%r:rest%".
Lemma ex_rule_simple : simple_rule ex_rule.
Proof.
  assert (HN : forall c, c = "n" \/ c = "h" \/ c = "r" -> plain_name (L c)).
  { intros c [-> |[-> | ->]]; (split; [discriminate|]; split; [reflexivity|]; intros d [<-|[]]; split; [reflexivity|]; intros H; repeat (destruct H as [H|H]; [discriminate H|]); exact H). }
  assert (HT : forall c, c = "number" \/ c = "char-to" \/ c = "rest" -> plain_type (L c)).
  { intros c [-> |[-> | ->]]; (split; [discriminate|]; intros d Hd; repeat (destruct Hd as [<-|Hd]; [split; [reflexivity|]; split; [discriminate|]; intros H; repeat (destruct H as [H|H]; [discriminate H|]); exact H|]); destruct Hd). }
  assert (HL : forall l, ~ In "%"%char l -> literal_run l).
  { induction l as [|c l IH]; intros Hi; [constructor|]. constructor; [intros ->; apply Hi; left; reflexivity|]. apply IH. intros H. apply Hi. right. exact H. }
  assert (X : forall s, (forall c, In c (L s) -> c <> "%"%char) -> literal_run (L s)) by (intros s Hs; apply HL; intros Hi; exact (Hs _ Hi eq_refl)).
  change ex_rule with (L "100%% of " ++ L "%" ++ L "n" ++ L ":" ++ L "number" ++ L "%" ++ (L " at " ++ L "%" ++ L "h" ++ L ":" ++ L "char-to" ++ L ":" ++ L ";" ++ L "%" ++ (L " {" ++ L "%" ++ L "r" ++ L ":" ++ L "rest" ++ L "%" ++ []))).
  apply sr_field; [do 3 (apply lr_char; [discriminate|]); apply lr_percent; apply (X " of ")|apply HN; auto|apply HT; auto|].
  { intros c Hc ->. repeat (destruct Hc as [Hc|Hc]; [discriminate Hc|]). destruct Hc. }
  apply sr_extra; [apply X|apply HN; auto|apply HT; auto| |].
  { intros c Hc ->. repeat (destruct Hc as [Hc|Hc]; [discriminate Hc|]). destruct Hc. }
  { intros H. repeat (destruct H as [H|H]; [discriminate H|]). destruct H. }
  apply sr_field; [apply X|apply HN; auto|apply HT; auto|apply sr_end; constructor].
  intros c Hc ->. repeat (destruct Hc as [Hc|Hc]; [discriminate Hc|]). destruct Hc.
Qed.

(** a text of a single line *)
Lemma one_line e t : ~ In feed t -> ~ In (chr 255) t -> (N.of_nat (List.length t) < 64 * 1024)%N -> (forall u, t <> L "include=" ++ u) ->
  forall l, a_line e t l -> l = t.
Proof.
  intros H1 H2 H3 H4.
  assert (X : forall l, a_line_of t l -> l = t).
  { intros l (a & w & b & E & Ha & Hb & -> & _ & _).
    assert (a = []) as ->.
    { destruct Ha as [Ha|[(a' & ->)|Ha]]; [exact Ha| |].
      - destruct H1. rewrite E, <- !app_assoc. apply in_or_app. right. left. reflexivity.
      - apply (f_equal (@List.length _)) in E. rewrite !app_length in E. lia. }
    assert (b = []) as ->.
    { destruct Hb as [Hb|[(b' & ->)|(b' & ->)]]; [exact Hb| |].
      - destruct H1. rewrite E. apply in_or_app. right. apply in_or_app. right. left. reflexivity.
      - destruct H2. rewrite E. apply in_or_app. right. apply in_or_app. right. left. reflexivity. }
    cbn [app] in E. rewrite app_nil_r in E. subst w. clear - H1. induction t as [|c t IH]; [reflexivity|]. cbn [filter].
    destruct (ceq c feed) eqn:Ec; [apply ceq_true in Ec; subst c; destruct H1; left; reflexivity|]. cbn [negb]. f_equal. apply IH. intros H. apply H1. right. exact H. }
  intros l (n & s & Hs & Hl).
  assert (s = t) as ->; [|apply X; exact Hl].
  clear Hl. induction Hs as [|n s u f content Hs -> Hu Hf Hc]; [reflexivity|]. exfalso. apply X in Hu. apply (H4 u). rewrite <- Hu. reflexivity.
Qed.

Theorem C87_simple_rules_meets : forall u, ~ load_trap env0 None (a_line env0 (L "rule=:" ++ ex_rule)) u.
Proof.
  intros u H.
  assert (HL : forall l, a_line env0 (L "rule=:" ++ ex_rule) l -> l = L "rule=:" ++ ex_rule).
  { apply one_line; [| |reflexivity|discriminate].
    - intros Hi. repeat (destruct Hi as [Hi|Hi]; [discriminate Hi|]). destruct Hi.
    - intros Hi. repeat (destruct Hi as [Hi|Hi]; [discriminate Hi|]). destruct Hi. }
  assert (HS : forall k v, says (a_line env0 (L "rule=:" ++ ex_rule)) k v -> L k ++ L "=" ++ v = L "rule=:" ++ ex_rule \/ L k = L "rule=:" ++ ex_rule).
  { intros k v [Hl|[-> Hl]]; apply HL in Hl; auto. }
  apply C87_simple_rules in H.
  - destruct H as [(_ & v & Hv)|[(v & Hv & _)|[(a & b & Hv & Ha & Hb)|(v & c & Hv & _)]]]; apply HS in Hv as [Hv|Hv]; try discriminate Hv.
    injection Hv as Hv. destruct Hb as [->|(a' & ->)]; [discriminate Hv|].
    destruct (a' ++ L ",") as [|d a0] eqn:Ea; [destruct a'; discriminate Ea|]. injection Hv as Hd _. subst d. apply Ha. left. reflexivity.
  - assert (HP : forall p, prefix_at None (a_line env0 (L "rule=:" ++ ex_rule)) p -> p = []).
    { intros p Hp. induction Hp as [_|p Hp|v Hv|p v Hp IH Hv]; [reflexivity|discriminate| |]; apply HS in Hv as [Hv|Hv]; discriminate Hv. }
    intros r [a s p Hl Ha Hp|a s Hl Ha]; apply HS in Hl as [Hl|Hl]; try discriminate Hl.
    rewrite (HP p Hp). injection Hl as Hl. destruct a as [|d a]; [|injection Hl as Hd _; subst d; destruct Ha; left; reflexivity].
    injection Hl as ->. exact ex_rule_simple.
Qed.
Print Assumptions C87_simple_rules_meets.
Example C87_simple_ex : exists cx, loadString env0 isort 80 (initCtx no_opts) (L "rule=:" ++ ex_rule) = EOk (cx, true).
Proof. eexists. vm_compute. reflexivity. Qed.
