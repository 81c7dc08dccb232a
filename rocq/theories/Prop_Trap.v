(** * Prop_Trap: C87 -- what can go wrong when a rulebase is loaded. *)
From Verif Require Import Base Time Parsers Engine Pdag Samp GraphSpec History SafetySpec TrapSpec BaseFacts LoadFacts NormSafe TrapTop Prop_Graph TestEnv.
From Coq Require Import ZifyBool ZifyNat ZifyN.

(** Whatever was loaded or normalized before: loading any string of bytes returns, or the
    string (or a file included by it) contains one of the listed traps. *)
Theorem C87_string : forall e q cx, permutes q -> history e q cx -> texts_there cx ->
  forall fuel s u, fits e (cstr s) fuel -> loadString e q fuel cx s = EUb u -> load_trap e (c_prefix cx) (a_line e (cstr s)) u.
Proof.
  intros e q cx HQ H HT fuel s u Hf E. pose proof (string_trap e q cx fuel s HQ (history_safe _ _ _ HQ H) HT) as HS. rewrite E in HS. destruct HS as [HS|[_ HS]]; [exact HS|contradiction].
Qed.
Print Assumptions C87_string.

(** The same for a file. *)
Theorem C87_file : forall e q cx, permutes q -> history e q cx -> texts_there cx ->
  forall fuel f u, (forall content, files e f = Some content -> fits e (skipn 10 content) fuel) -> loadFile e q (S fuel) cx f = EUb u ->
  exists content, files e f = Some content /\
    ((u = V1Engine /\ firstn 10 content <> L "version=2" ++ [chr 10]) \/
     (firstn 10 content = L "version=2" ++ [chr 10] /\ load_trap e (c_prefix cx) (a_line e (skipn 10 content)) u)).
Proof.
  intros e q cx HQ H HT fuel f u Hf E. pose proof (file_trap e q cx fuel f HQ (history_safe _ _ _ HQ H) HT) as HS. rewrite E in HS.
  destruct HS as [(HS & content & H1 & H2)|(content & H1 & H2 & [HS|[_ HS]])]; [eauto|eauto 7|destruct (HS (Hf _ H1))].
Qed.
Print Assumptions C87_file.

(** What is required of the context holds at the beginning and after every load without a trap,
    successful or not. *)
Theorem C87_texts_stay : forall e q cx, permutes q -> history e q cx -> texts_there cx ->
  forall fuel s cx' ok, loadString e q fuel cx s = EOk (cx', ok) -> ~ load_trap e (c_prefix cx) (a_line e (cstr s)) NullDeref -> texts_there cx'.
Proof.
  intros e q cx HQ H HT fuel s cx' ok E Hn. pose proof (string_trap e q cx fuel s HQ (history_safe _ _ _ HQ H) HT) as HS. rewrite E in HS. destruct HS as [HS|HS]; [exact HS|contradiction].
Qed.
Print Assumptions C87_texts_stay.
Theorem C87_texts_init : forall o, texts_there (initCtx o).
Proof. intros o [|i] n p Hi Hp; [injection Hi as <-; destruct Hp|]. destruct i; discriminate Hi. Qed.
Print Assumptions C87_texts_init.

(** ** Rulebases of literals *)
Definition contains (t w : text) : Prop := exists a b, t = a ++ w ++ b.
Definition plain_text (t : text) : Prop :=
  ~ In "%"%char t /\ ~ In ","%char t /\ ~ contains t (L "include") /\ ~ contains t (L "extendprefix") /\ ~ contains t (L "annotate").

Lemma plain_line e t : plain_text t -> forall line, a_line e t line -> contains t line /\ forall n s, source e t n s -> n = 0 /\ s = t.
Proof.
  intros (H1 & H2 & H3 & _) line Hl.
  assert (X : forall l, a_line_of t l -> contains t l).
  { intros l (a & w & b & -> & _ & _ & -> & _ & HW). exists a, b. do 2 f_equal.
    assert (Hn : forall w1 w2, w <> w1 ++ feed :: w2).
    { intros w1 w2 E. specialize (HW _ _ E). unfold in_field in HW. rewrite (proj1 (count_occ_not_In ascii_dec w1 "%"%char)) in HW; [discriminate|].
      intros Hi. apply H1. apply in_or_app. right. apply in_or_app. left. rewrite E. apply in_or_app. auto. }
    clear - Hn. induction w as [|c w IH]; [reflexivity|]. cbn [filter]. destruct (ceq c feed) eqn:E.
    - apply ceq_true in E. subst c. destruct (Hn [] w eq_refl).
    - cbn [negb]. f_equal. apply IH. intros w1 w2 ->. exact (Hn (c :: w1) w2 eq_refl). }
  assert (Y : forall n s, source e t n s -> n = 0 /\ s = t).
  { intros n s Hs. induction Hs as [|n s u f content Hs [-> ->] Hu Hf Hc]; [auto|]. exfalso. apply H3. apply X in Hu as (a & b & E). exists a, (L "=" ++ u ++ b). rewrite E. cbn. reflexivity. }
  split; [|exact Y]. destruct Hl as (n & s & Hs & Hl). destruct (Y _ _ Hs) as [_ ->]. apply X. exact Hl.
Qed.
Lemma plain_no_trap e t u p0 : plain_text t -> (forall p, p0 = Some p -> ~ In "%"%char p) -> ~ load_trap e p0 (a_line e t) u.
Proof.
  intros HP H0 H. pose proof HP as (H1 & H2 & H3 & H4 & H5).
  assert (HS : forall k v, says (a_line e t) k v -> contains t (L k) /\ contains t v).
  { intros k v [Hl|[-> Hl]]; apply (plain_line e t HP) in Hl as [(a & b & E) _].
    - split; [exists a, (L "=" ++ v ++ b)|exists (a ++ L k ++ L "="), b]; rewrite E, <- ?app_assoc; reflexivity.
    - split; [exists a, b; exact E|exists [], t; reflexivity]. }
  assert (HC : forall v c, contains t v -> In c v -> In c t) by (intros v c (a & b & ->) Hc; apply in_or_app; right; apply in_or_app; auto).
  assert (HPre : forall p, prefix_at p0 (a_line e t) p -> ~ In "%"%char p).
  { intros p Hp. induction Hp as [Hp|p Hp|v Hv|p v Hp IH Hv]; [intros []|exact (H0 _ Hp)| |].
    - intros Hc. apply H1. eapply HC; [apply HS in Hv; apply Hv|exact Hc].
    - intros Hc. apply in_app_or in Hc as [Hc|Hc]; [auto|]. apply H1. eapply HC; [apply HS in Hv; apply Hv|exact Hc]. }
  assert (HR : forall r, rule_of p0 (a_line e t) r -> ~ In "%"%char r).
  { intros r Hr Hc. destruct Hr as [a v p Hl Ha Hp|a v Hl Ha].
    - apply in_app_or in Hc as [Hc|Hc]; [exact (HPre _ Hp Hc)|]. apply H1. eapply HC; [apply HS in Hl; apply Hl|]. apply in_or_app. right. apply in_or_app. auto.
    - apply H1. eapply HC; [apply HS in Hl; apply Hl|]. apply in_or_app. right. apply in_or_app. auto. }
  assert (HOp : forall r w, opens_at e r w -> In "%"%char r) by (intros r w [l c v _ _|l c v rest conf w' _ _ _ _]; apply in_or_app; right; left; reflexivity).
  destruct H as [v Hn Hl|v Hl Hv|a b Hl Ha Hb|r w Hr Ho Hw|r w rest conf u Hr Ho Hf Hc|v c Hl Hc].
  - apply H4. apply (HS _ _ Hl).
  - apply H3. apply (HS _ _ Hl).
  - apply H2. eapply HC; [apply (HS _ _ Hl)|]. apply in_or_app. right. left. reflexivity.
  - exact (HR _ Hr (HOp _ _ Ho)).
  - exact (HR _ Hr (HOp _ _ Ho)).
  - apply H5. apply (HS _ _ Hl).
Qed.

(** A text without fields, tags lists, includes, annotations and extendprefix is always loaded,
    whatever else it contains. *)
Theorem C87_plain_loads : forall e q cx, permutes q -> history e q cx -> texts_there cx -> (forall p, c_prefix cx = Some p -> ~ In "%"%char p) ->
  forall fuel s, plain_text (cstr s) -> List.length (cstr s) < fuel -> exists cx' ok, loadString e q fuel cx s = EOk (cx', ok) /\ texts_there cx'.
Proof.
  intros e q cx HQ H HT Hp fuel s HP Hf. destruct (loadString e q fuel cx s) as [[cx' ok]|u] eqn:E.
  - exists cx', ok. split; [reflexivity|]. eapply C87_texts_stay; eauto. apply plain_no_trap; auto.
  - exfalso. apply (C87_string e q cx HQ H HT fuel s u) in E; [exact (plain_no_trap e _ u _ HP Hp E)|].
    intros n t Hs. assert (HL : n = 0 /\ t = cstr s); [|destruct HL as [-> ->]; lia]. clear - HP Hs. induction Hs as [|n t u f content Hs [-> ->] Hu Hf Hc]; [auto|].
    assert (Hl : a_line e (cstr s) (L "include=" ++ u)) by (exists 0, (cstr s); split; [constructor|exact Hu]). apply (plain_line e _ HP) in Hl as [(a & b & Hl) _].
    exfalso. destruct HP as (_ & _ & HP & _). apply HP. exists a, (L "=" ++ u ++ b). rewrite Hl. reflexivity.
Qed.
Print Assumptions C87_plain_loads.

(** ** Examples *)
From Coq Require Import String.
Local Open Scope string_scope.
Local Open Scope list_scope.
(** All the traps do occur. *)
Definition load_fails (l : list string) (u : ub) : Prop := load0 no_opts ("version=2" :: l) = EUb u.
Theorem C87_traps_occur :
  load_fails ["extendprefix=a"] NullDeref /\ load_fails ["extendprefix"] NullDeref /\ load_fails ["include="] OobRead /\
  load_fails ["rule=,:a"] NullDeref /\ load_fails ["rule=a,,b:a"] NullDeref /\
  load_fails ["rule=:a% "] UninitRead /\ load_fails ["rule=:%a:number{""x"":1}"] UninitRead /\
  load_fails ["rule=:%{""type"":""number"",""format"":null}%"] NullDeref /\ load_fails ["rule=:%{""name"":""a""}%"] NullDeref /\
  load_fails ["rule=:%[[],{""type"":""number"",""name"":""n""}]%"] NullDeref /\ load_fails ["type=@t:%{""type"":""literal""}%"] NullDeref /\
  load_fails ["rule=:%{""type"":""string"",""matching.permitted"":[1]}%"] UninitRead /\
  load0 no_opts ["version=2"; append "rule=:%{""type"":""string"",""matching.permitted"":""" (String (chr 200) """}%")] = EUb OobWrite /\
  load_fails ["annotate=t:+x=""y"" "] OutOfFuel.
Proof. unfold load_fails. vm_compute. repeat split. Qed.
Print Assumptions C87_traps_occur.

(** A file that includes itself is never loaded, whatever the stack: the nesting of include lines
    is not limited. *)
Definition env_self : env := {| wraps := wraps env0; asserts_on := true; char_signed := true; cur_year := cur_year env0; json_tok := json_tok env0; json_show := json_show env0;
  json_num := json_num env0; json_erroff := json_erroff env0; unescape := unescape env0;
  files := fun f => if text_eqb f (L "a") then Some (lines ["version=2"; "include=a"]%string) else None |}.
Theorem C87_include_ends_refuted : forall q fuel o, loadFile env_self q fuel (initCtx o) (L "a") = EUb OutOfFuel.
Proof.
  intros q fuel o. unfold loadFile. generalize 1. assert (HV : c_version (initCtx o) = 0%N \/ c_version (initCtx o) = 2%N) by (left; reflexivity). revert HV. generalize (initCtx o).
  induction fuel as [|k IH]; intros cx HV level; [reflexivity|]. cbn [loadSamples].
  change (files env_self (L "a")) with (Some (lines ["version=2"; "include=a"]%string)).
  change (lines ["version=2"; "include=a"]%string) with ("v"%char :: skipn 1 (lines ["version=2"; "include=a"]%string)) at 1. cbv iota.
  change (text_eqb (firstn 10 ("v"%char :: skipn 1 (lines ["version=2"; "include=a"]%string))) version2) with true. cbv iota. change (c_version (set_pos cx (L "a") 0)) with (c_version cx).
  replace (negb (N.eqb (c_version cx) 0) && negb (N.eqb 2 (c_version cx)))%bool with false by (destruct HV as [-> | ->]; reflexivity). cbv iota. cbn [negb].
  change (S (List.length ("v"%char :: skipn 1 (lines ["version=2"; "include=a"]%string)))) with (S 20). generalize 20. intros m. cbn [load_lines].
  change (c_line (set_pos (set_version (set_pos cx (L "a") 0) 2) (L "a") 1)) with 1%N.
  replace (sampRead env_self _ _ _ _ _ _ _) with (RR (RLine (L "include=a") [] false 2)) by (vm_compute; reflexivity).
  unfold processSamp. change (getLineType (L "include=a")) with (Some (L "include", L "a")). cbv iota beta.
  repeat match goal with |- context [text_eqb (L "include") ?x] => let r := eval vm_compute in (text_eqb (L "include") x) in change (text_eqb (L "include") x) with r end. cbv iota.
  change (include_name (L "a")) with (EOk (L "a")). cbn [ebind]. match goal with |- context [loadSamples env_self q k (S level) ?c ?f] => replace (loadSamples env_self q k (S level) c f) with (EUb OutOfFuel : er (ctx * bool)) by (symmetry; exact (IH c (or_intror eq_refl) (S level))) end. reflexivity.
Qed.
Print Assumptions C87_include_ends_refuted.

Example C87_ex : plain_text (lines ["# rules"; "prefix=a"; "rule=t:b c"; "type=@x:z"; "rule=nocolon"; "nonsense"]%string) /\
  exists cx, loadString env0 isort 80 (initCtx no_opts) (lines ["# rules"; "prefix=a"; "rule=t:b c"; "type=@x:z"; "rule=nocolon"; "nonsense"]%string) = EOk (cx, true).
Proof.
  split; [|eexists; vm_compute; reflexivity].
  assert (HC : forall t w, (fix has (t : text) := (text_eqb (firstn (List.length w) t) w || match t with [] => false | _ :: t' => has t' end)%bool) t = false -> ~ contains t w).
  { intros t w H (a & b & E). revert t H E. induction a as [|c a IH]; intros t H E; subst t; cbn [app] in H.
    - destruct (w ++ b) eqn:Ew; apply orb_false_iff in H as [H _]; rewrite <- Ew in H; rewrite firstn_app, Nat.sub_diag, firstn_all, app_nil_r, text_eqb_refl in H; discriminate.
    - apply orb_false_iff in H as [_ H]. exact (IH _ H eq_refl). }
  split; [|split; [|split; [|split]]]; try (apply HC; vm_compute; reflexivity); intros H; vm_compute in H; repeat (destruct H as [H|H]; [discriminate H|]); destruct H.
Qed.
