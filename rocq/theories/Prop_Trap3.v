(** * Prop_Trap3: C87 -- rulebases, line by line, that are always loaded. *)
From Verif Require Import Base Time Parsers Engine Pdag Samp GraphSpec History SafetySpec TrapSpec BaseFacts LoadFacts LoadTop NormSafe TrapTop Prop_Graph Prop_Trap Prop_Trap2 TestEnv.
From Coq Require Import ZifyBool ZifyNat ZifyN.

(** The tags of a rule: no empty one before a comma. *)
Definition plain_tags (g : text) : Prop :=
  (forall c, In c g -> ~ In c (L ":%")) /\ forall a b, g = a ++ L "," ++ b -> a <> [] /\ forall a', a <> a' ++ L ",".
(** The lines: comments, a prefix, rules and types whose fields are of the simple kind; empty
    lines. *)
Inductive good_line : text -> Prop :=
| gl_empty : good_line []
| gl_comment : forall c, good_line (L "#" ++ c)
| gl_prefix : forall p, simple_rule p -> good_line (L "prefix=" ++ p)
| gl_rule : forall g r, plain_tags g -> simple_rule r -> good_line (L "rule=" ++ g ++ L ":" ++ r)
| gl_type : forall n r, (forall c, In c n -> ~ In c (L ":%")) -> simple_rule r -> good_line (L "type=" ++ n ++ L ":" ++ r).
Fixpoint text_of (ls : list text) : text :=
  match ls with [] => [] | l :: ls' => l ++ feed :: text_of ls' end.

Definition whole (l : text) : Prop := Nat.odd (count_occ ascii_dec l "%"%char) = false.
Lemma odd_add a b : Nat.odd (a + b) = xorb (Nat.odd a) (Nat.odd b).
Proof. apply Nat.odd_add. Qed.
Lemma whole_app a b : whole a -> whole b -> whole (a ++ b).
Proof. unfold whole. intros Ha Hb. rewrite count_occ_app, odd_add, Ha, Hb. reflexivity. Qed.
Lemma whole_none a : ~ In "%"%char a -> whole a.
Proof. intros H. unfold whole. rewrite (proj1 (count_occ_not_In ascii_dec a "%"%char) H). reflexivity. Qed.
Lemma literal_whole l : literal_run l -> whole l.
Proof.
  induction 1 as [|c l Hc _ IH|l _ IH]; [reflexivity| |].
  - change (c :: l) with ([c] ++ l). apply whole_app; [|exact IH]. apply whole_none. intros [H|[]]. congruence.
  - change ("%"%char :: "%"%char :: l) with (L "%%" ++ l). apply whole_app; [reflexivity|exact IH].
Qed.
Lemma simple_whole r : simple_rule r -> whole r.
Proof.
  assert (HN : forall n, plain_name n -> ~ In "%"%char n) by (intros n (_ & _ & H) Hi; apply (proj2 (H _ Hi)); cbn; auto).
  assert (HT : forall t, plain_type t -> ~ In "%"%char t) by (intros t (_ & H) Hi; apply (proj2 (proj2 (H _ Hi))); cbn; auto).
  assert (X : forall n z y, ~ In "%"%char n -> ~ In "%"%char z -> whole y -> whole (L "%" ++ n ++ L ":" ++ z ++ L "%" ++ y)).
  { intros n z y Hn Hz Hy. unfold whole in *. rewrite !count_occ_app, (proj1 (count_occ_not_In ascii_dec n "%"%char) Hn), (proj1 (count_occ_not_In ascii_dec z "%"%char) Hz), !odd_add, Hy. reflexivity. }
  induction 1 as [l Hl|l n t r Hl Hn Ht _ IH|l n t x r Hl Hn Ht Hx _ IH]; [apply literal_whole; exact Hl| |].
  - apply whole_app; [apply literal_whole; exact Hl|]. apply X; auto.
  - apply whole_app; [apply literal_whole; exact Hl|]. replace (L "%" ++ n ++ L ":" ++ t ++ L ":" ++ x ++ L "%" ++ r) with (L "%" ++ n ++ L ":" ++ (t ++ L ":" ++ x) ++ L "%" ++ r) by (rewrite <- !app_assoc; reflexivity).
    apply X; auto. intros Hi. apply in_app_or in Hi as [Hi|[Hi|Hi]]; [exact (HT _ Ht Hi)|discriminate Hi|exact (Hx Hi)].
Qed.
Lemma run_app a b : literal_run a -> literal_run b -> literal_run (a ++ b).
Proof. induction 1 as [|c l Hc _ IH|l _ IH]; intros Hb; cbn [app]; [exact Hb|apply lr_char; auto|apply lr_percent; auto]. Qed.
Lemma simple_app_lit p s : literal_run p -> simple_rule s -> simple_rule (p ++ s).
Proof.
  intros Hp [l Hl|l n t r Hl Hn Ht Hr|l n t x r Hl Hn Ht Hx Hr].
  - apply sr_end. apply run_app; assumption.
  - rewrite app_assoc. apply sr_field; auto using run_app.
  - rewrite app_assoc. apply sr_extra; auto using run_app.
Qed.
Lemma simple_app p s : simple_rule p -> simple_rule s -> simple_rule (p ++ s).
Proof.
  intros Hp Hs. induction Hp as [l Hl|l n t r Hl Hn Ht _ IH|l n t x r Hl Hn Ht Hx _ IH]; [apply simple_app_lit; assumption| |].
  - rewrite <- !app_assoc. apply sr_field; auto.
  - rewrite <- !app_assoc. apply sr_extra; auto.
Qed.

Lemma good_whole l : good_line l -> whole l \/ exists c, l = L "#" ++ c.
Proof.
  assert (HG : forall g, (forall c, In c g -> ~ In c (L ":%")) -> whole g) by (intros g H; apply whole_none; intros Hi; apply (H _ Hi); cbn; auto).
  intros [|c|p Hp|g r Hg Hr|n r Hn Hr]; [left; reflexivity|right; eauto| | |]; left.
  - apply whole_app; [reflexivity|apply simple_whole; exact Hp].
  - apply whole_app; [reflexivity|]. apply whole_app; [apply HG; apply Hg|]. apply whole_app; [reflexivity|apply simple_whole; exact Hr].
  - apply whole_app; [reflexivity|]. apply whole_app; [apply HG; exact Hn|]. apply whole_app; [reflexivity|apply simple_whole; exact Hr].
Qed.

Definition tidy (l : text) : Prop := ~ In feed l /\ ~ In (chr 255) l /\ (whole l \/ exists c, l = L "#" ++ c).
Lemma lines_of ls : Forall tidy ls -> forall a w b, text_of ls = a ++ w ++ b -> (a = [] \/ exists a', a = a' ++ [feed]) -> line_end b ->
  (exists c w', w = c :: w' /\ c <> "#"%char /\ c <> feed) -> (forall w1 w2, w = w1 ++ feed :: w2 -> in_field w1) -> In w ls.
Proof.
  induction 1 as [|l ls (H1 & H2 & H3) _ IH]; intros a w b E Ha Hb (c & w' & Hw & Hc1 & Hc2) HF.
  - apply (f_equal (@List.length _)) in E. subst w. rewrite !app_length in E. cbn in E. lia.
  - cbn [text_of] in E. destruct Ha as [-> | (a' & ->)].
    + cbn [app] in E. apply app_eq_app in E as (z & [[E1 E2]|[E1 E2]]).
      * destruct z as [|d z]; [left; rewrite E1; apply app_nil_r|]. exfalso. subst l. destruct Hb as [->|[(b' & ->)|(b' & ->)]]; [discriminate E2| |]; injection E2 as <- _.
        -- apply H1. apply in_or_app. right. left. reflexivity.
        -- apply H2. apply in_or_app. right. left. reflexivity.
      * destruct z as [|d z]; [left; rewrite E1; symmetry; apply app_nil_r|]. exfalso. injection E2 as <- _. specialize (HF _ _ E1). unfold in_field in HF.
        destruct H3 as [H3|(x & ->)]; [unfold whole in H3; congruence|]. rewrite Hw in E1. injection E1 as E1 _. congruence.
    + rewrite <- app_assoc in E. cbn [app] in E. apply app_eq_app in E as (z & [[E1 E2]|[E1 E2]]).
      * destruct z as [|d z]; [|exfalso; injection E2 as <- _; apply H1; rewrite E1; apply in_or_app; right; left; reflexivity].
        cbn [app] in E2. injection E2 as E2. right. apply (IH [] w b); [symmetry; exact E2|auto|exact Hb|eauto|exact HF].
      * destruct z as [|d z]; cbn [app] in E2; injection E2 as E2.
        -- right. apply (IH [] w b); [exact E2|auto|exact Hb|eauto|exact HF].
        -- right. apply (IH (z ++ [feed]) w b); [rewrite <- app_assoc; assumption|eauto|exact Hb|eauto|exact HF].
Qed.

Section Good.
Variables (e : env) (ls : list text).
Hypothesis HG : Forall good_line ls.
Hypothesis HN : Forall (fun l => ~ In feed l /\ ~ In (chr 255) l) ls.
Hypothesis HS : (N.of_nat (List.length (text_of ls)) < 64 * 1024)%N.

Lemma good_a_line_of l : a_line_of (text_of ls) l -> In l ls.
Proof.
  intros (a & w & b & E & Ha & Hb & -> & Hw & HF).
  assert (HT : Forall tidy ls).
  { apply Forall_forall. intros x Hx. rewrite Forall_forall in HG, HN. destruct (HN _ Hx) as [N1 N2]. split; [exact N1|]. split; [exact N2|]. apply good_whole. auto. }
  assert (HI : In w ls).
  { apply (lines_of ls HT a w b E); [|exact Hb|exact Hw|exact HF]. destruct Ha as [Ha|[Ha|Ha]]; auto. exfalso. apply (f_equal (@List.length _)) in E. rewrite !app_length in E. lia. }
  assert (HX : filter (fun c => negb (ceq c feed)) w = w); [|rewrite HX; exact HI].
  rewrite Forall_forall in HN. destruct (HN _ HI) as [N1 _]. clear - N1. induction w as [|c t IH]; [reflexivity|]. cbn [filter].
  destruct (ceq c feed) eqn:Ec; [apply ceq_true in Ec; subst c; destruct N1; left; reflexivity|]. cbn [negb]. f_equal. apply IH. intros H. apply N1. right. exact H.
Qed.
Lemma good_source n s : source e (text_of ls) n s -> n = 0 /\ s = text_of ls.
Proof.
  induction 1 as [|n s u f content Hs [-> ->] Hu Hf Hc]; [auto|]. exfalso. apply good_a_line_of in Hu. rewrite Forall_forall in HG. apply HG in Hu. inversion Hu.
Qed.
Lemma good_a_line l : a_line e (text_of ls) l -> good_line l.
Proof. intros (n & s & Hs & Hl). apply good_source in Hs as [_ ->]. apply good_a_line_of in Hl. rewrite Forall_forall in HG. auto. Qed.
Lemma good_says k v : says (a_line e (text_of ls)) k v -> good_line (L k ++ L "=" ++ v) \/ good_line (L k).
Proof. intros [H|[_ H]]; apply good_a_line in H; auto. Qed.
End Good.

Lemma colon_split g r a s : ~ In ":"%char g -> ~ In ":"%char a -> g ++ ":"%char :: r = a ++ ":"%char :: s -> g = a /\ r = s.
Proof. intros Hg Ha E. apply (span_eq (fun c => c <> ":"%char)) in E as (-> & _ & ->); auto; intros x Hx ->; auto. Qed.

(** No line feed, no NUL and no byte 255 inside of a line, 64 KiB at most *)
Definition good_rulebase (ls : list text) : Prop :=
  Forall good_line ls /\ Forall (fun l => ~ In feed l /\ ~ In (chr 255) l /\ ~ In NUL l) ls /\ (N.of_nat (List.length (text_of ls)) < 64 * 1024)%N.
Lemma good_no_trap e p0 ls : (forall p, p0 = Some p -> simple_rule p) -> good_rulebase ls -> forall u, ~ load_trap e p0 (a_line e (text_of ls)) u.
Proof.
  intros HP (HG & HN & HS) u HU.
  assert (HN' : Forall (fun l => ~ In feed l /\ ~ In (chr 255) l) ls) by (revert HN; apply Forall_impl; tauto).
  pose proof (good_says e ls HG HN' HS) as HY.
  apply C87_simple_rules in HU.
  - destruct HU as [(_ & v & Hv)|[(v & Hv & _)|[(a & b & Hl & Ha & Hb)|(v & c & Hv & _)]]].
    + apply HY in Hv as [Hv|Hv]; inversion Hv.
    + apply HY in Hv as [Hv|Hv]; inversion Hv.
    + apply HY in Hl as [Hl|Hl]; inversion Hl as [| | |g r' Hg Hr Eg|].
      cbn [L app] in Eg. apply app_eq_app in Eg as (z & [[E1 E2]|[E1 E2]]); (destruct z as [|d z]; [discriminate E2|injection E2 as <- _]).
      * destruct (proj2 Hg a z E1) as [X1 X2]. destruct Hb as [Hb|(a' & Hb)]; [exact (X1 Hb)|exact (X2 _ Hb)].
      * destruct Ha. rewrite E1. apply in_or_app. right. left. reflexivity.
    + apply HY in Hv as [Hv|Hv]; inversion Hv.
  - assert (HPx : forall p, prefix_at p0 (a_line e (text_of ls)) p -> simple_rule p).
    { intros p Hp. induction Hp as [_|p Hp|v Hv|p v Hp IH Hv]; [apply sr_end; constructor|auto| |].
      - apply HY in Hv as [Hv|Hv]; inversion Hv; subst. assumption.
      - apply HY in Hv as [Hv|Hv]; inversion Hv. }
    intros r [a s p Hl Ha Hp|a s Hl Ha]; apply HY in Hl as [Hl|Hl]; inversion Hl as [| | |g r' Hg Hr Eg|g r' Hg Hr Eg].
    + apply colon_split in Eg as [_ ->]; [|intros Hi; apply (proj1 Hg _ Hi); cbn; auto|exact Ha]. apply simple_app; auto.
    + apply colon_split in Eg as [_ ->]; [|intros Hi; apply (Hg _ Hi); cbn; auto|exact Ha]. exact Hr.
Qed.
Lemma good_fits e ls fuel : good_rulebase ls -> List.length (text_of ls) < fuel -> fits e (text_of ls) fuel.
Proof.
  intros (HG & HN & HS) Hf n t Hs. assert (HN' : Forall (fun l => ~ In feed l /\ ~ In (chr 255) l) ls) by (revert HN; apply Forall_impl; tauto).
  apply (good_source e ls HG HN' HS) in Hs as [-> ->]. lia.
Qed.

(** A rulebase of such lines is loaded (with or without reported mistakes, after any history),
    as a text *)
Theorem C87_good_lines_load : forall e q cx, permutes q -> history e q cx -> texts_there cx -> (forall p, c_prefix cx = Some p -> simple_rule p) ->
  forall ls, good_rulebase ls -> forall fuel, List.length (text_of ls) < fuel ->
  exists cx' ok, loadString e q fuel cx (text_of ls) = EOk (cx', ok) /\ texts_there cx'.
Proof.
  intros e q cx HQ H HT HP ls HR fuel Hf.
  assert (HZ : cstr (text_of ls) = text_of ls).
  { apply cstr_nonul. destruct HR as (_ & HN & _). clear - HN. induction HN as [|l ls (_ & _ & Hl) _ IH]; [intros []|]. cbn [text_of]. intros Hi. apply in_app_or in Hi as [Hi|[Hi|Hi]]; [exact (Hl Hi)|discriminate Hi|exact (IH Hi)]. }
  pose proof (good_no_trap e (c_prefix cx) ls HP HR) as HX.
  destruct (loadString e q fuel cx (text_of ls)) as [[cx' ok]|u] eqn:E.
  - exists cx', ok. split; [reflexivity|]. eapply C87_texts_stay; eauto. rewrite HZ. apply HX.
  - exfalso. apply (HX u). rewrite <- HZ. apply (C87_string e q cx HQ H HT fuel (text_of ls) u); [rewrite HZ; apply good_fits; assumption|exact E].
Qed.
Print Assumptions C87_good_lines_load.
(** and as a file, behind the line "version=2". *)
Theorem C87_good_file_loads : forall e q cx, permutes q -> history e q cx -> texts_there cx -> (forall p, c_prefix cx = Some p -> simple_rule p) ->
  forall ls, good_rulebase ls -> forall f, files e f = Some (text_of (L "version=2" :: ls)) -> forall fuel, List.length (text_of ls) < fuel ->
  exists cx' ok, loadFile e q (S fuel) cx f = EOk (cx', ok).
Proof.
  intros e q cx HQ H HT HP ls HR f EF fuel Hf.
  destruct (loadFile e q (S fuel) cx f) as [[cx' ok]|u] eqn:E; [eauto|exfalso].
  apply (C87_file e q cx HQ H HT) in E as (content & H1 & H2).
  - rewrite EF in H1. injection H1 as <-. destruct H2 as [[_ H2]|[_ H2]]; [apply H2; reflexivity|].
    exact (good_no_trap e _ ls HP HR u H2).
  - intros content H1. rewrite EF in H1. injection H1 as <-. exact (good_fits e ls fuel HR Hf).
Qed.
Print Assumptions C87_good_file_loads.

(** Such a rulebase, and what loading it yields. *)
From Coq Require Import String.
Local Open Scope string_scope.
Local Open Scope list_scope.
Definition ex_lines : list text :=
  [L "# rules"; []; L "prefix=<%p:number%> "; L "rule=a,b:" ++ ex_rule; L "type=@pair:%k:char-to:=%"].
Theorem C87_good_lines_meets : good_rulebase ex_lines /\ exists cx, loadString env0 isort 200 (initCtx no_opts) (text_of ex_lines) = EOk (cx, true).
Proof.
  split; [|eexists; vm_compute; reflexivity]. split; [|split; [|reflexivity]].
  - constructor; [apply (gl_comment (L " rules"))|]. constructor; [apply gl_empty|]. constructor.
    { apply (gl_prefix (L "<%p:number%> ")). apply (sr_field (L "<") (L "p") (L "number") (L "> ")).
      - constructor; [discriminate|constructor].
      - split; [discriminate|]. split; [reflexivity|]. intros c [<-|[]]. split; [reflexivity|]. intros H. repeat (destruct H as [H|H]; [discriminate H|]). exact H.
      - split; [discriminate|]. intros c Hc. repeat (destruct Hc as [<-|Hc]; [split; [reflexivity|]; split; [discriminate|]; intros H; repeat (destruct H as [H|H]; [discriminate H|]); exact H|]). destruct Hc.
      - apply sr_end. constructor; [discriminate|]. constructor; [discriminate|constructor]. }
    constructor.
    { apply (gl_rule (L "a,b") ex_rule); [|exact ex_rule_simple]. split.
      - intros c Hc H. repeat (destruct Hc as [<-|Hc]; [repeat (destruct H as [H|H]; [discriminate H|]); exact H|]). destruct Hc.
      - intros a b E. destruct a as [|c a]; [discriminate E|]. split; [discriminate|]. injection E as <- E. destruct a as [|d a].
        + intros [|x a']; [discriminate|]. intros [= _ H]. destruct a'; discriminate H.
        + injection E as <- E. destruct a as [|x a]; [discriminate E|]. injection E as _ E. destruct a; discriminate E. }
    constructor; [|constructor].
    apply (gl_type (L "@pair") (L "%k:char-to:=%")).
    + intros c Hc H. repeat (destruct Hc as [<-|Hc]; [repeat (destruct H as [H|H]; [discriminate H|]); exact H|]). destruct Hc.
    + apply (sr_extra [] (L "k") (L "char-to") (L "=") []); [constructor| | | |apply sr_end; constructor].
      * split; [discriminate|]. split; [reflexivity|]. intros c [<-|[]]. split; [reflexivity|]. intros H. repeat (destruct H as [H|H]; [discriminate H|]). exact H.
      * split; [discriminate|]. intros c Hc. repeat (destruct Hc as [<-|Hc]; [split; [reflexivity|]; split; [discriminate|]; intros H; repeat (destruct H as [H|H]; [discriminate H|]); exact H|]). destruct Hc.
      * intros [H|[]]. discriminate H.
  - repeat constructor; intros H; vm_compute in H; repeat (destruct H as [H|H]; [discriminate H|]); destruct H.
Qed.
Print Assumptions C87_good_lines_meets.
