(** * Prop_Engine: C01-C07, C47, C54-C57, C59 -- the normalizer. *)
From Verif Require Import Base Time Parsers Engine Pdag Samp TestEnv FieldSpec SafetySpec EngineSpec EngineSpec2 EngineWf
  BaseFacts FieldFacts EngineFacts EngineFacts2 EngineFacts3 EngineHist EngineGen EngineGen2 EngineTotal EngineCheck.
Open Scope string_scope.

(** ** Rulebases for the examples *)
Definition cx_of (o : opts) (l : list string) : ctx := match load0 o l with EOk (cx, _) => cx | EUb _ => initCtx o end.
Definition rb1 : list string :=
  ["rule=t1:user %u:word% logged in"; "rule=t2:user %u:word% failed"; "rule=:n=%n:number%%r:rest%"; "rule=:n=%m:number%"].
Definition cx1 : ctx := Eval vm_compute in cx_of no_opts rb1.
Lemma cx1_plain : plain cx1 (c_root cx1). Proof. apply plain_b_ok with (f := 20). vm_compute. reflexivity. Qed.
Definition rbT : list string :=
  ["version=2"; "type=@pair:%k:char-to:=%=%v:number%"; "type=@pair:none";
   "rule=:start %p:@pair% %{""name"":""r"",""type"":""repeat"",""parser"":{""name"":""."",""type"":""number""},""while"":{""type"":""literal"",""text"":"",""}}% end"].
Definition cxT : ctx := Eval vm_compute in cx_of no_opts rbT.
Definition rkT (i : nat) : nat := rank_b cxT 30 i.

(** ** C01 *)
(** Success means: a path of the rule graph whose fields take consecutive pieces of the
    message, and the pieces together are the message. *)
Theorem C01_match_is_real : forall fuel e cx msg js0 o cx',
  plain cx (c_root cx) -> normalize fuel e cx msg js0 = EOk (true, o, cx') ->
  exists w en, walk e cx msg false (c_root cx) 0 w en /\ List.concat (map (piece msg) w) = msg.
Proof.
  intros fuel e cx msg js0 o cx' Hp H. apply normalize_success in H as (w & en & rep & nr & Hw & _); auto.
  exists w, en. split; auto. apply (walk_pieces _ _ _ _ _ _ _ Hw). lia.
Qed.
Print Assumptions C01_match_is_real.
Example C01_ex : plain cx1 (c_root cx1) /\ exists o cx', normalize 50 env0 cx1 (L "user bob failed") [] = EOk (true, o, cx').
Proof. split; [exact cx1_plain|]. eexists. eexists. vm_compute. reflexivity. Qed.

(** Every rulebase, with user-defined types and repeat: a match in the sense of
    EngineSpec2.v, whose fields are the fields delivered. *)
Theorem C01_match_is_real_all_graphs : forall fuel e cx msg js0 o cx',
  normalize fuel e cx msg js0 = EOk (true, o, cx') ->
  exists w en, gwalk e cx msg false (c_root cx) 0 w en (List.length msg) /\
    forall k, k <> L "event.tags" -> k <> L "originalmsg" -> k <> L "metadata" -> ~ In k (annot_names (c_annots cx)) ->
       obj_get o k = obj_get (fields_of js0 w) k.
Proof. exact normalize_sound. Qed.
Print Assumptions C01_match_is_real_all_graphs.
Example C01_ex_types : exists o cx', normalize 50 env0 cxT (L "start a=5 1,2 end") [] = EOk (true, o, cx') /\
  obj_get o (L "p") = Some (JObj [(L "v", JStr (L "5")); (L "k", JStr (L "a"))]) /\ obj_get o (L "r") = Some (JArr [JStr (L "1"); JStr (L "2")]).
Proof. eexists. eexists. vm_compute. auto. Qed.

(** ** C02 *)
Theorem C02_backtracking_complete : forall fuel e cx msg js0 ok o cx' w en,
  plain cx (c_root cx) -> walk e cx msg false (c_root cx) 0 w en ->
  normalize fuel e cx msg js0 = EOk (ok, o, cx') -> ok = true.
Proof.
  intros fuel e cx msg js0 ok o cx' w en Hp Hw H. destruct ok; auto. apply normalize_failure in H as [H _]; auto. destruct (H w en Hw).
Qed.
Print Assumptions C02_backtracking_complete.
(** Every rulebase, with user-defined types and repeat: a match through simple fields is never
    overlooked because of them. *)
Theorem C02_backtracking_complete_all_graphs : forall fuel e cx msg js0 ok o cx' w en,
  walk e cx msg false (c_root cx) 0 w en -> normalize fuel e cx msg js0 = EOk (ok, o, cx') -> ok = true.
Proof.
  intros fuel e cx msg js0 ok o cx' w en Hw H. destruct ok; auto. apply normalize_fails in H as [H _]. destruct (H w en Hw).
Qed.
Print Assumptions C02_backtracking_complete_all_graphs.
(** With a definite result. *)
Theorem C02_match_is_found : forall e cx msg rk js0 w en,
  tok_ok e -> plain cx (c_root cx) -> graph_ok cx rk -> report_ok cx -> fields_usable cx -> harmless e msg ->
  walk e cx msg false (c_root cx) 0 w en ->
  forall fuel, rk (c_root cx) + List.length msg + 2 <= fuel -> exists o cx', normalize fuel e cx msg js0 = EOk (true, o, cx').
Proof.
  intros e cx msg rk js0 w en H1 H2 H3 H4 H5 H6 Hw fuel Hf.
  destruct (normalize_safe e cx msg rk fuel js0 H1 H3 H4 H5 H6 Hf) as (ok & o & cx' & H).
  rewrite (C02_backtracking_complete _ _ _ _ _ _ _ _ _ _ H2 Hw H) in H. eauto.
Qed.
Print Assumptions C02_match_is_found.
Definition msg1 : text := L "user bob failed".
Lemma msg1_harmless e : asserts_on e = false -> harmless e msg1.
Proof.
  intros He. repeat split; auto.
  - intros (a & ds & b & H & Hd & Hl). destruct ds as [|d ds]; [discriminate|]. inversion Hd as [|? ? Hd1 _]; subst.
    assert (Hin : In d msg1) by (rewrite H; apply in_or_app; right; left; reflexivity).
    cbn in Hin. apply isdigit_iff in Hd1. repeat (destruct Hin as [<-|Hin]; [vm_compute in Hd1; discriminate|]). exact Hin.
  - cbn. intros H. repeat (destruct H as [H|H]; [discriminate|]). exact H.
  - repeat constructor.
  - intros [a H]. apply (f_equal (@rev _)) in H. rewrite rev_app_distr in H. discriminate.
Qed.
Example C02_ex : exists e, tok_ok e /\ plain cx1 (c_root cx1) /\ graph_ok cx1 (rank_b cx1 30) /\ report_ok cx1 /\ fields_usable cx1 /\
  harmless e msg1 /\ exists w en, walk e cx1 msg1 false (c_root cx1) 0 w en.
Proof.
  exists {| wraps := true; asserts_on := false; char_signed := true; cur_year := 2026; json_tok := fun _ => None;
     json_show := fun _ => []; json_num := fun _ => 0%Z; json_erroff := fun _ => 0; unescape := fun t => t; files := fun _ => None |}.
  split; [intros t j n; discriminate|]. split; [exact cx1_plain|]. split; [apply graph_okb_ok; vm_compute; reflexivity|].
  split; [apply report_ok_plain; reflexivity|]. split; [apply usable_b_ok; vm_compute; reflexivity|]. split; [apply msg1_harmless; reflexivity|].
  match goal with |- context [walk ?e _ _ _ _ _ _ _] => pose proof (C01_match_is_real 50 e cx1 msg1 []) as H end.
  edestruct H as (w & en & Hw & _); [exact cx1_plain|vm_compute; reflexivity|]. exists w, en. exact Hw.
Qed.

(** ** C03 *)
(** The result is that of the match that comes first in the order of the parser lists. *)
Theorem C03_first_alternative_wins : forall fuel e cx msg js0 o cx',
  plain cx (c_root cx) -> normalize fuel e cx msg js0 = EOk (true, o, cx') ->
  exists w en, walk e cx msg false (c_root cx) 0 w en /\
    (forall w' en', walk e cx msg false (c_root cx) 0 w' en' -> before w w') /\
    forall k, k <> L "event.tags" -> k <> L "originalmsg" -> k <> L "metadata" -> ~ In k (annot_names (c_annots cx)) ->
       obj_get o k = obj_get (fields_of js0 w) k.
Proof.
  intros fuel e cx msg js0 o cx' Hp H. apply normalize_success in H as (w & en & rep & nr & Hw & Hf & _ & _ & Hk & _); auto. exists w, en. auto.
Qed.
Print Assumptions C03_first_alternative_wins.
(** [before] is an order in which the first match is unique as to its fields. *)
Theorem C03_order_antisymmetric : forall e cx msg w w' en en',
  walk e cx msg false (c_root cx) 0 w en -> walk e cx msg false (c_root cx) 0 w' en' -> before w w' -> before w' w -> w = w'.
Proof. exact before_antisym. Qed.
Print Assumptions C03_order_antisymmetric.
Example C03_ex : (* both the third and the fourth rule of rb1 match *)
  match normalize 50 env0 cx1 (L "n=42") [] with EOk (true, o, _) => o = [(L "r", JStr []); (L "n", JStr (L "42"))] | _ => False end.
Proof. vm_compute. reflexivity. Qed.

(** ** C04 *)
(** A member of the result that is neither one of the members added after the match nor one
    the caller passed in was stored by a field of the match. Every rulebase. *)
Theorem C04_no_leak : forall fuel e cx msg js0 o cx',
  normalize fuel e cx msg js0 = EOk (true, o, cx') ->
  exists w en, gwalk e cx msg false (c_root cx) 0 w en (List.length msg) /\
    forall k, k <> L "event.tags" -> k <> L "originalmsg" -> k <> L "metadata" -> ~ In k (annot_names (c_annots cx)) ->
      obj_get o k <> None -> obj_get js0 k <> None \/ exists st, In st w /\ supplies st k.
Proof.
  intros fuel e cx msg js0 o cx' H. apply normalize_sound in H as (w & en & Hw & Hk). exists w, en. split; auto.
  intros k K1 K2 K3 K4 Ho. apply fields_of_some. rewrite <- (Hk k); auto.
Qed.
Print Assumptions C04_no_leak.
(** Without tags and options the result is exactly the fields of the (first) match. *)
Theorem C04_exactly_the_fields : forall fuel e cx msg js0 o cx',
  plain cx (c_root cx) -> (forall i n, node_at cx i n -> n_tags n = None) ->
  opt_orig (c_opts cx) = false -> opt_rule (c_opts cx) = false -> opt_loc (c_opts cx) = false ->
  normalize fuel e cx msg js0 = EOk (true, o, cx') ->
  exists w en, walk e cx msg false (c_root cx) 0 w en /\
    (forall w' en', walk e cx msg false (c_root cx) 0 w' en' -> before w w') /\ o = fields_of js0 w.
Proof.
  intros fuel e cx msg js0 o cx' Hp Ht H1 H2 H3 H. apply normalize_success in H as (w & en & rep & nr & Hw & Hf & _ & Hr & _ & Ho & _); auto.
  exists w, en. split; auto. split; auto. apply Ho; auto. eapply Ht; eauto.
Qed.
Print Assumptions C04_exactly_the_fields.
Example C04_ex : match normalize 50 env0 cx1 (L "user bob failed") [] with
  | EOk (true, o, _) => o = [(L "u", JStr (L "bob")); (L "event.tags", JArr [JStr (L "t2")])] | _ => False end.
Proof. vm_compute. reflexivity. Qed.

(** ** C05 *)
(** Failure means: no match exists, and the object passed in gets exactly originalmsg and
    unparsed-data, the latter being what follows the furthest position a partial match got to. *)
Theorem C05_failure_report : forall fuel e cx msg js0 o cx',
  plain cx (c_root cx) -> normalize fuel e cx msg js0 = EOk (false, o, cx') ->
  (forall w en, ~ walk e cx msg false (c_root cx) 0 w en) /\
  exists k, (k = 0 \/ reaches e cx msg (c_root cx) 0 k) /\
    (forall k', reaches e cx msg (c_root cx) 0 k' -> k' <= k) /\ k <= List.length msg /\
    o = set_member (set_member js0 (L "originalmsg") (JStr msg)) (L "unparsed-data") (JStr (cstr (skipn k msg))).
Proof. exact normalize_failure. Qed.
Print Assumptions C05_failure_report.
Example C05_ex : match normalize 50 env0 cx1 (L "user bob fxled") [] with
  | EOk (false, o, _) => o = [(L "originalmsg", JStr (L "user bob fxled")); (L "unparsed-data", JStr (L "fxled"))] | _ => False end.
Proof. vm_compute. reflexivity. Qed.
(** Every rulebase: on failure nothing but the two members is added; no match through simple
    fields exists; the position is one that some alternative got to, and no alternative of
    simple fields got further. *)
Theorem C05_failure_report_all_graphs : forall fuel e cx msg js0 o cx',
  normalize fuel e cx msg js0 = EOk (false, o, cx') ->
  (forall w en, ~ walk e cx msg false (c_root cx) 0 w en) /\
  exists k, (k = 0 \/ greaches e cx msg (c_root cx) 0 k) /\
    (forall k', reaches e cx msg (c_root cx) 0 k' -> k' <= k) /\ k <= List.length msg /\
    o = set_member (set_member js0 (L "originalmsg") (JStr msg)) (L "unparsed-data") (JStr (cstr (skipn k msg))).
Proof. intros fuel e cx msg. apply normalize_fails. Qed.
Print Assumptions C05_failure_report_all_graphs.
Example C05_ex_types : match normalize 50 env0 cxT (L "start a=5 1,2 emd") [] with
  | EOk (false, o, _) => o = [(L "originalmsg", JStr (L "start a=5 1,2 emd")); (L "unparsed-data", JStr (L " emd"))] | _ => False end.
Proof. vm_compute. reflexivity. Qed.
(** [cstr] cuts at a NUL byte: with one, unparsed-data is shorter than what was left. *)
Theorem C05_nul_refuted : exists o cx', normalize 50 env0 cx1 (L "zz" ++ [NUL] ++ L "y")%list [] = EOk (false, o, cx') /\
  obj_get o (L "unparsed-data") = Some (JStr (L "zz")).
Proof. eexists. eexists. vm_compute. auto. Qed.

(** ** C06 *)
Theorem C06_no_memory : forall fuel fuel' e cx cx' ms msg js0,
  history fuel e cx ms = EOk cx' ->
  visible (normalize fuel' e cx' msg js0) = visible (normalize fuel' e cx msg js0).
Proof. exact normalize_no_memory. Qed.
Print Assumptions C06_no_memory.
Example C06_ex : exists cx', history 50 env0 cxT [(L "start a=5 1,2 end", []); (L "start none 7 end", []); (L "start x", [])] = EOk cx'.
Proof. eexists. vm_compute. reflexivity. Qed.

(** ** C07 *)
(** On rulebases without recursion (every field refers to nodes of smaller rank), whose type
    definitions and repeated parsers take at least one field and whose separators take at
    least one byte, the normalizer never runs out of fuel [rank + length + 2]: it returns. *)
Theorem C07_terminates : forall e cx rk msg js0 fuel,
  tok_ok e -> graph_ok cx rk -> report_ok cx ->
  rk (c_root cx) + List.length msg + 2 <= fuel -> normalize fuel e cx msg js0 <> EUb OutOfFuel.
Proof.
  intros e cx rk msg js0 fuel H1 H2 H3 H4 H. apply (normalize_exposed e cx msg rk fuel js0 OutOfFuel H1 H2 H3 H4) in H.
  destruct (exposed_not_fuel cx e msg H).
Qed.
Print Assumptions C07_terminates.
(** On such rulebases the only misbehaviour left is that of single fields (see C09). *)
Theorem C07_only_field_hazards : forall e cx rk msg js0 fuel u,
  tok_ok e -> graph_ok cx rk -> report_ok cx ->
  rk (c_root cx) + List.length msg + 2 <= fuel -> normalize fuel e cx msg js0 = EUb u -> exposed cx e msg u.
Proof. intros e cx rk msg js0 fuel u. apply normalize_exposed. Qed.
Print Assumptions C07_only_field_hazards.
Theorem C07_returns : forall e cx rk msg js0 fuel,
  tok_ok e -> graph_ok cx rk -> report_ok cx -> fields_usable cx -> harmless e msg ->
  rk (c_root cx) + List.length msg + 2 <= fuel -> exists ok o cx', normalize fuel e cx msg js0 = EOk (ok, o, cx').
Proof. intros e cx rk msg js0 fuel. apply normalize_safe. Qed.
Print Assumptions C07_returns.
Example C07_ex : graph_ok cxT rkT /\ report_ok cxT /\ fields_usable cxT.
Proof. split; [apply graph_okb_ok; vm_compute; reflexivity|]. split; [apply report_ok_plain; reflexivity|apply usable_b_ok; vm_compute; reflexivity]. Qed.

(** A type that starts with itself: the recursion never ends (in C: until the stack is gone). *)
Definition rbL : list string := ["version=2"; "type=@T:%x:@T%a"; "rule=:%t:@T%y"].
Definition cxL : ctx := Eval vm_compute in cx_of no_opts rbL.
Theorem C07_left_recursion_refuted : load0 no_opts rbL = EOk (cxL, true) /\
  forall fuel e js0, normalize fuel e cxL (L "x") js0 = EUb OutOfFuel.
Proof.
  split; [vm_compute; reflexivity|]. intros fuel e js0.
  assert (H : forall f s, normalizeRec e cxL (L "x") f 1 0 true s = EUb OutOfFuel).
  { induction f as [|f IH]; intros s; [reflexivity|]. eapply first_custom_ub; try reflexivity. exact IH. }
  unfold normalize. destruct fuel as [|fuel]; [reflexivity|]. erewrite first_custom_ub; try reflexivity. intros s. apply H.
Qed.
Print Assumptions C07_left_recursion_refuted.
(** A repeat whose parser and separator can both be empty: the loop never ends (in C: until
    the memory for the result array is gone). *)
Definition rbR : list string := ["version=2"; "rule=:%{""name"":""r"",""type"":""repeat"",""parser"":{""name"":""."",""type"":""char-sep"",""extradata"":"",""},""while"":{""type"":""rest"",""name"":""-""}}%"].
Definition cxR : ctx := Eval vm_compute in cx_of no_opts rbR.
Theorem C07_empty_repeat_refuted : load0 no_opts rbR = EOk (cxR, true) /\
  forall fuel e js0, normalize fuel e cxR (L "x") js0 = EUb OutOfFuel.
Proof.
  split; [vm_compute; reflexivity|]. intros fuel e js0.
  assert (H0 : forall f s, r_pt s <= 1 -> r_js s = Some [] -> exists s', normalizeRec e cxR (L "x") (S (S f)) 1 0 true s = EOk (true, s') /\ r_pt s' = 1).
  { intros f [pt js en ru lo] Hpt Hjs. cbn in Hpt, Hjs. subst js. destruct pt as [|[|pt]]; [| |lia]; (eexists; split; [reflexivity|reflexivity]). }
  assert (H1 : forall f s, r_pt s = 1 -> r_js s = Some [] -> exists s', normalizeRec e cxR (L "x") (S (S f)) 1 1 true s = EOk (true, s') /\ r_pt s' = 1).
  { intros f [pt js en ru lo] Hpt Hjs. cbn in Hpt, Hjs. subst js pt. eexists. split; [reflexivity|]. reflexivity. }
  assert (H2 : forall f s, r_pt s = 0 -> r_js s = None -> exists s', normalizeRec e cxR (L "x") (S (S f)) 3 1 true s = EOk (true, s') /\ r_pt s' = 1).
  { intros f [pt js en ru lo] Hpt Hjs. cbn in Hpt, Hjs. subst js pt. eexists. split; [reflexivity|]. reflexivity. }
  assert (HL : forall g f lkg arr s, r_pt s = 1 -> repeat_loop (normalizeRec e cxR (L "x") (S (S f))) g 1 3 false 1 lkg arr s = EUb OutOfFuel).
  { induction g as [|g IH]; intros f lkg arr s Hs; [reflexivity|]. cbn [repeat_loop].
    destruct (H1 f (set_end (set_js s (Some [])) None)) as (s1 & -> & Hs1); [exact Hs|reflexivity|]. cbn [ebind negb]. rewrite Hs1.
    destruct (H2 f (set_end (set_js (set_pt s1 0) None) None)) as (s2 & -> & Hs2); [reflexivity|reflexivity|]. cbn [ebind]. rewrite Hs2. apply IH. exact Hs2. }
  assert (HL0 : forall g f lkg arr s, r_pt s = 0 -> repeat_loop (normalizeRec e cxR (L "x") (S (S f))) g 1 3 false 0 lkg arr s = EUb OutOfFuel).
  { destruct g as [|g]; intros f lkg arr s Hs; [reflexivity|]. cbn [repeat_loop].
    destruct (H0 f (set_end (set_js s (Some [])) None)) as (s1 & -> & Hs1); [cbn in *; lia|reflexivity|]. cbn [ebind negb]. rewrite Hs1.
    destruct (H2 f (set_end (set_js (set_pt s1 0) None) None)) as (s2 & -> & Hs2); [reflexivity|reflexivity|]. cbn [ebind]. rewrite Hs2. apply HL. exact Hs2. }
  unfold normalize. fold (st0 js0). destruct fuel as [|[|[|fuel]]]; try reflexivity.
  erewrite first_repeat_ub with (u := OutOfFuel) (pn := 1) (wn := 3) (permit := false); try reflexivity.
  intros s Hs. apply HL0. exact Hs.
Qed.
Print Assumptions C07_empty_repeat_refuted.

(** ** C47 (normalizer part) *)
(** If the last field of the match took at least one byte, event.tags is the tag list stored
    at the rule end of the match. *)
Theorem C47_tags_of_matched_rule : forall fuel e cx msg js0 o cx',
  plain cx (c_root cx) -> normalize fuel e cx msg js0 = EOk (true, o, cx') ->
  ~ In (L "event.tags") (annot_names (c_annots cx)) ->
  exists w en n, walk e cx msg false (c_root cx) 0 w en /\ node_at cx en n /\
    (forall w' en', walk e cx msg false (c_root cx) 0 w' en' -> before w w') /\
    (last_nonempty w -> forall tags, n_tags n = Some tags -> obj_get o (L "event.tags") = Some tags).
Proof.
  intros fuel e cx msg js0 o cx' Hp H Ha. apply normalize_success in H as (w & en & rep & nr & Hw & Hf & Hrep & Hnr & _ & _ & _ & Htag & _); auto.
  destruct (walk_end_node _ _ _ _ _ _ _ _ Hw) as [n Hn]. exists w, en, n. split; auto. split; auto. split; auto.
  intros Hl tags Ht. rewrite (reported_end _ _ _ _ _ _ _ Hw Hl) in Hrep. subst rep. rewrite (node_at_fun _ _ _ _ Hnr Hn) in *. rewrite (Htag Ha), Ht. reflexivity.
Qed.
Print Assumptions C47_tags_of_matched_rule.
(** If the last field is empty the tags may be those of another rule: *)
Theorem C47_refuted : run0 no_opts ["rule=t1:hello"; "rule=t2:hello%x:rest%"] "hello" =
  EOk (true, [(L "x", JStr []); (L "event.tags", JArr [JStr (L "t1")])]).
Proof. vm_compute. reflexivity. Qed.

(** ** C54 *)
(** Unnamed fields store nothing; a field with an ordinary name that no other field of the
    match uses is found under its name ("..": the only member itself). *)
Theorem C54_named_field : forall fuel e cx msg js0 o cx',
  normalize fuel e cx msg js0 = EOk (true, o, cx') ->
  exists w en, gwalk e cx msg false (c_root cx) 0 w en (List.length msg) /\
    forall w1 st w2 nm, w = (w1 ++ st :: w2)%list -> p_name (st_prs st) = Some nm -> nm <> L "." ->
      nm <> L "event.tags" -> nm <> L "originalmsg" -> nm <> L "metadata" -> ~ In nm (annot_names (c_annots cx)) ->
      obj_get js0 nm = None -> Forall (other_name nm) (w1 ++ w2)%list ->
      obj_get o nm = Some (stored_value (st_val st)).
Proof.
  intros fuel e cx msg js0 o cx' H. apply normalize_sound in H as (w & en & Hw & Hk). exists w, en. split; auto.
  intros w1 st w2 nm -> Hn Hd K1 K2 K3 K4 Hj HF. rewrite Hk; auto. apply fields_of_named; auto.
Qed.
Print Assumptions C54_named_field.
(** "." merges, unnamed ignores, anything else appends: by the definition of [store] (EngineSpec.v). *)
Theorem C54_store : forall p v o, fixJSON p v (Some o) = EOk (Some (store (p_name p) v o)).
Proof. exact fixJSON_store. Qed.
Print Assumptions C54_store.
Example C54_ex : run0 no_opts ["version=2"; "type=@T:%k:word%"; "type=@U:%..:number%"; "rule=:%.:@T% %n:@U% %-:word%"] "ab 12 x" =
  EOk (true, [(L "n", JStr (L "12")); (L "k", JStr (L "ab"))]).
Proof. vm_compute. reflexivity. Qed.

(** ** C55 *)
Theorem C55_metadata : forall fuel e cx msg js0 o cx',
  plain cx (c_root cx) -> normalize fuel e cx msg js0 = EOk (true, o, cx') ->
  exists w en nr, walk e cx msg false (c_root cx) 0 w en /\
    (forall w' en', walk e cx msg false (c_root cx) 0 w' en' -> before w w') /\
    node_at cx (reported cx msg false (c_root cx) 0 w en) nr /\
    (last_nonempty w -> node_at cx en nr) /\
    (opt_rule (c_opts cx) || opt_loc (c_opts cx) = true -> ~ In NUL (rule_text w) ->
       obj_get o (L "metadata") = Some (metadata cx nr w))%bool /\
    (opt_rule (c_opts cx) = false -> opt_loc (c_opts cx) = false -> ~ In (L "metadata") (annot_names (c_annots cx)) ->
       obj_get o (L "metadata") = obj_get (fields_of js0 w) (L "metadata")).
Proof. exact normalize_metadata. Qed.
Print Assumptions C55_metadata.
Example C55_ex : run0 {| opt_orig := false; opt_rule := true; opt_loc := true |} rb1 "user bob failed" =
  EOk (true, [(L "u", JStr (L "bob")); (L "event.tags", JArr [JStr (L "t2")]);
              (L "metadata", JObj [(L "rule", JObj [(L "mockup", JStr (L "user %u:word% failed"));
                 (L "location", JObj [(L "file", JStr (L "--NO-FILE--")); (L "line", JInt 2)])])])]).
Proof. vm_compute. reflexivity. Qed.

(** ** C56 *)
(** The value of a user-defined type is the object of the fields of a match of one of the
    type's rules that starts at the field's position; the field goes on at or behind the end
    of that match. (Not always exactly at its end: C56_refuted.) *)
Lemma custom_value e cx msg p ti from to v :
  p_kind p = KCustom ti -> gaccepts e cx msg p from to v ->
  exists nm tn w en last, nth_error (c_types cx) ti = Some (nm, tn) /\ gwalk e cx msg true tn from w en last /\
    v = JObj (fields_of [] w) /\ (w = [] \/ last <= to).
Proof.
  intros Hk H. inversion H as [? ? ? ? (m & n & Hm & _)|? ti' nm tn ? w en last ? Hk' Ht Hw Hg|? ? ? ? ? ? ? Hk'|? ? ? ? Hk']; subst; rewrite Hk in *; try discriminate.
  injection Hk' as <-. exists nm, tn, w, en, last. auto.
Qed.
Lemma gwalk_accepts e cx msg : forall w1 pa nd offs st w2 en last, gwalk e cx msg pa nd offs (w1 ++ st :: w2) en last -> gaccepts e cx msg (st_prs st) (st_from st) (st_to st) (st_val st).
Proof.
  induction w1 as [|x w1 IH]; intros pa nd offs st w2 en last H; cbn [app] in H; inversion H; subst; [assumption|]. eapply IH; eauto.
Qed.
Theorem C56_custom_type_value : forall fuel e cx msg js0 o cx',
  normalize fuel e cx msg js0 = EOk (true, o, cx') ->
  exists w en, gwalk e cx msg false (c_root cx) 0 w en (List.length msg) /\
    forall w1 st w2 nm ti, w = (w1 ++ st :: w2)%list -> p_kind (st_prs st) = KCustom ti -> p_name (st_prs st) = Some nm -> nm <> L "." ->
      nm <> L "event.tags" -> nm <> L "originalmsg" -> nm <> L "metadata" -> ~ In nm (annot_names (c_annots cx)) ->
      obj_get js0 nm = None -> Forall (other_name nm) (w1 ++ w2)%list ->
      exists ty tn w' en' last, nth_error (c_types cx) ti = Some (ty, tn) /\ gwalk e cx msg true tn (st_from st) w' en' last /\
        (w' = [] \/ last <= st_to st) /\ obj_get o nm = Some (stored_value (JObj (fields_of [] w'))).
Proof.
  intros fuel e cx msg js0 o cx' H. destruct (C54_named_field _ _ _ _ _ _ _ H) as (w & en & Hw & HN). exists w, en. split; [exact Hw|].
  intros w1 st w2 nm ti -> Hk Hn A1 A2 A3 A4 A5 A6 A7. destruct (custom_value _ _ _ _ _ _ _ _ Hk (gwalk_accepts _ _ _ _ _ _ _ _ _ _ _ Hw)) as (ty & tn & w' & en' & last & B1 & B2 & B3 & B4).
  exists ty, tn, w', en', last. rewrite <- B3. split; [exact B1|]. split; [exact B2|]. split; [exact B4|]. apply (HN w1 st w2 nm eq_refl Hn A1 A2 A3 A4 A5 A6 A7).
Qed.
Print Assumptions C56_custom_type_value.
Theorem C56_refuted : (* @T is "a" or "ab" number; on "abx" it matches "a" but goes on behind "ab" *)
  run0 no_opts ["version=2"; "type=@T:a"; "type=@T:ab%n:number%"; "rule=:%t:@T%x"] "abx" = EOk (true, [(L "t", JObj [])]) /\
  exists o, run0 no_opts ["version=2"; "type=@T:a"; "type=@T:ab%n:number%"; "rule=:%t:@T%bx"] "abx" = EOk (false, o).
Proof. split; [vm_compute; reflexivity|]. eexists. vm_compute. reflexivity. Qed.

(** ** C57 *)
(** The value of a repeat field is the list of the values of matches of its parser, the
    matches being separated by matches of the while parser (EngineSpec2.v, [gitems]); with
    option.permitMismatchInParser it may also be empty. (Not always exactly
    where the one before ended: C57_refuted.) *)
Lemma repeat_value e cx msg p pn wn permit from to v :
  p_kind p = KRepeat pn wn permit -> gaccepts e cx msg p from to v ->
  (exists vs, vs <> [] /\ gitems e cx msg pn wn permit from vs to /\ v = (if named p then JArr vs else JNull)) \/
  (permit = true /\ to = from /\ v = JNull).
Proof.
  intros Hk H. inversion H as [? ? ? ? (m & n & Hm & _)|? ? ? ? ? ? ? ? ? Hk'|? pn' wn' pe' ? ? vs Hk' Hg Hne|? pn' wn' ? Hk']; subst; rewrite Hk in *; try discriminate.
  - injection Hk' as <- <- <-. left. exists vs. auto.
  - injection Hk' as <- <- ->. right. auto.
Qed.
Theorem C57_repeat_value : forall fuel e cx msg js0 o cx',
  normalize fuel e cx msg js0 = EOk (true, o, cx') ->
  exists w en, gwalk e cx msg false (c_root cx) 0 w en (List.length msg) /\
    forall w1 st w2 nm pn wn permit, w = (w1 ++ st :: w2)%list -> p_kind (st_prs st) = KRepeat pn wn permit -> p_name (st_prs st) = Some nm -> nm <> L "." ->
      nm <> L "event.tags" -> nm <> L "originalmsg" -> nm <> L "metadata" -> ~ In nm (annot_names (c_annots cx)) ->
      obj_get js0 nm = None -> Forall (other_name nm) (w1 ++ w2)%list ->
      (exists vs, vs <> [] /\ gitems e cx msg pn wn permit (st_from st) vs (st_to st) /\ obj_get o nm = Some (JArr vs)) \/
      (permit = true /\ st_to st = st_from st /\ obj_get o nm = Some JNull).
Proof.
  intros fuel e cx msg js0 o cx' H. destruct (C54_named_field _ _ _ _ _ _ _ H) as (w & en & Hw & HN). exists w, en. split; [exact Hw|].
  intros w1 st w2 nm pn wn permit -> Hk Hn A1 A2 A3 A4 A5 A6 A7. pose proof (HN w1 st w2 nm eq_refl Hn A1 A2 A3 A4 A5 A6 A7) as HV.
  destruct (repeat_value _ _ _ _ _ _ _ _ _ _ Hk (gwalk_accepts _ _ _ _ _ _ _ _ _ _ _ Hw)) as [(vs & B1 & B2 & B3)|(B1 & B2 & B3)]; rewrite B3 in HV.
  - left. exists vs. split; [exact B1|]. split; [exact B2|]. rewrite HV. unfold named. rewrite Hn. reflexivity.
  - right. split; [exact B1|]. split; [exact B2|]. rewrite HV. reflexivity.
Qed.
Print Assumptions C57_repeat_value.
Theorem C57_refuted : (* "1,2": an alternative that got as far as the end makes the repeat skip the second number *)
  run0 no_opts ["version=2"; "rule=:1,2%a:ipv4%";
    "rule=:%{""name"":""r"",""type"":""repeat"",""parser"":{""name"":""."",""type"":""number""},""while"":{""type"":""literal"",""text"":"",""}}%"] "1,2"
  = EOk (true, [(L "r", JArr [JStr (L "1")])]).
Proof. vm_compute. reflexivity. Qed.

(** ** C59 *)
Theorem C59_originalmsg : forall fuel e cx msg js0 ok o cx',
  normalize fuel e cx msg js0 = EOk (ok, o, cx') ->
  ok = false \/ opt_orig (c_opts cx) = true -> obj_get o (L "originalmsg") = Some (JStr msg).
Proof. exact normalize_originalmsg. Qed.
Print Assumptions C59_originalmsg.
