(** * Prop_Conc: concurrent calls of ln_normalize on one context (C92). *)
From Verif Require Import Base Time Parsers Engine EngineFacts2 EngineHist Conc ConcFacts ConcSpec TestEnv.
From Coq Require Import Permutation String.
Local Open Scope list_scope.

(** Whatever the schedule and however increments are carried out: a call that returns
    returns what it would have returned alone, and the graph is as before (counters
    aside). *)
Theorem C92_same_answers : forall atomic fuel e cx reqs sched cx' ts', c_annots cx = [] ->
  run_threads atomic sched cx (calls fuel e cx reqs) = (cx', ts') ->
  same_ctx cx cx' /\
  forall i msg js a, nth_error reqs i = Some (msg, js) -> returned ts' i a -> alone fuel e cx msg js a.
Proof.
  intros atomic fuel e cx reqs sched cx' ts' HA H. destruct (run_inv atomic cx _ _ _ _ _ (same_ctx_refl cx) H) as (H1 & _ & H3).
  split; auto. intros i msg js a Hi Hr.
  assert (Hp : nth_error (calls fuel e cx reqs) i = Some (normalizeP e msg fuel (c_root cx) js)).
  { unfold calls. rewrite nth_error_map, Hi. reflexivity. }
  destruct (H3 i _ Hp) as (p' & Hp' & Hd & _). unfold returned in Hr. rewrite Hr in Hp'. injection Hp' as <-.
  rewrite normalizeP_den in Hd by exact HA. cbn [den] in Hd.
  destruct (normalize fuel e cx msg js) as [[[ok o] c1]|u] eqn:E; cbn [visible] in Hd; [|discriminate]. injection Hd as ->. exists c1. exact E.
Qed.
Print Assumptions C92_same_answers.

(** A call crashes only if it crashes alone. *)
Theorem C92_no_new_crash : forall atomic fuel e cx reqs sched cx' ts' i msg js u, c_annots cx = [] ->
  run_threads atomic sched cx (calls fuel e cx reqs) = (cx', ts') ->
  nth_error reqs i = Some (msg, js) -> crashed ts' i u -> normalize fuel e cx msg js = EUb u.
Proof.
  intros atomic fuel e cx reqs sched cx' ts' i msg js u HA H Hi Hr. destruct (run_inv atomic cx _ _ _ _ _ (same_ctx_refl cx) H) as (H1 & _ & H3).
  assert (Hp : nth_error (calls fuel e cx reqs) i = Some (normalizeP e msg fuel (c_root cx) js)).
  { unfold calls. rewrite nth_error_map, Hi. reflexivity. }
  destruct (H3 i _ Hp) as (p' & Hp' & Hd & _). unfold crashed in Hr. rewrite Hr in Hp'. injection Hp' as <-.
  rewrite normalizeP_den in Hd by exact HA. cbn [den] in Hd.
  destruct (normalize fuel e cx msg js) as [[[ok o] c1]|u1] eqn:E; cbn [visible] in Hd; congruence.
Qed.
Print Assumptions C92_no_new_crash.

(** No call waits for another: each has a number of turns, its own whatever the others do,
    after which it is finished, and before which it is not. *)
Theorem C92_finishes : forall atomic fuel e cx msg js, c_annots cx = [] ->
  exists n, forall reqs sched cx' ts' i, run_threads atomic sched cx (calls fuel e cx reqs) = (cx', ts') ->
    nth_error reqs i = Some (msg, js) ->
    (finished ts' i <-> n <= turns sched i) /\
    forall a, alone fuel e cx msg js a -> n <= turns sched i -> returned ts' i a.
Proof.
  intros atomic fuel e cx msg js HA. exists (size atomic cx (normalizeP e msg fuel (c_root cx) js)).
  intros reqs sched cx' ts' i H Hi. destruct (run_inv atomic cx _ _ _ _ _ (same_ctx_refl cx) H) as (H1 & _ & H3).
  assert (Hp : nth_error (calls fuel e cx reqs) i = Some (normalizeP e msg fuel (c_root cx) js)).
  { unfold calls. rewrite nth_error_map, Hi. reflexivity. }
  destruct (H3 i _ Hp) as (p' & Hp' & Hd & Hs). unfold turns. split; [split|].
  - intros [[a Ha]|[u Hu]].
    + unfold returned in Ha. rewrite Ha in Hp'. injection Hp' as <-. cbn [size] in Hs. lia.
    + unfold crashed in Hu. rewrite Hu in Hp'. injection Hp' as <-. cbn [size] in Hs. lia.
  - intros Hn. assert (Hz : size atomic cx p' = 0) by lia. pose proof (size_done _ _ _ Hz) as Hz'.
    destruct (den cx p') as [a|u]; subst p'; [left|right]; eexists; exact Hp'.
  - intros a (c1 & Ea) Hn. assert (Hz : size atomic cx p' = 0) by lia. pose proof (size_done _ _ _ Hz) as Hz'.
    rewrite Hd, normalizeP_den, Ea in Hz' by exact HA. cbn [visible] in Hz'. subst p'. destruct a. exact Hp'.
Qed.
Print Assumptions C92_finishes.

(** When increments are atomic the counters count every visit: after all calls have
    returned the context is, in every detail, the one the same calls leave when they are
    made one after another. *)
Theorem C92_counters_atomic : forall fuel e cx reqs sched cx' ts', c_annots cx = [] ->
  run_threads true sched cx (calls fuel e cx reqs) = (cx', ts') ->
  (forall i, i < List.length reqs -> exists a, returned ts' i a) ->
  history fuel e cx reqs = EOk cx'.
Proof.
  intros fuel e cx reqs sched cx' ts' HA H HF. pose proof H as H0. destruct (run_inv true cx _ _ _ _ _ (same_ctx_refl cx) H) as (_ & Hlen & _).
  assert (HC : Forall clean (calls fuel e cx reqs)).
  { apply Forall_forall. intros p Hp. unfold calls in Hp. apply in_map_iff in Hp as (q & <- & _). apply (normalizeP_clean e cx). }
  destruct (run_atomic cx _ _ _ _ _ (same_ctx_refl cx) HC H) as (l & Hp & ->).
  destruct (C92_same_answers _ _ _ _ _ _ _ _ HA H0) as (_ & HS).
  destruct (history_runs fuel e reqs cx) as (c' & Hc').
  { intros m js Hin. apply In_nth_error in Hin as (i & Hi). destruct (HF i) as (a & Ha); [apply nth_error_Some; congruence|].
    destruct (HS i m js a Hi Ha) as (c1 & E). eauto. }
  rewrite Hc'. f_equal. apply (history_incs fuel e cx) in Hc'; [|apply same_ctx_refl]. rewrite Hc'. f_equal. apply incs_perm.
  change (map _ reqs) with (calls fuel e cx reqs).
  assert (Ht : todo cx ts' = []).
  { assert (Hall : forall p, In p ts' -> incs cx p = []).
    { intros p Hin. apply In_nth_error in Hin as (i & Hi).
      assert (Hlt : i < List.length reqs).
      { assert (Hx : i < List.length ts') by (apply nth_error_Some; congruence). rewrite Hlen in Hx. unfold calls in Hx. rewrite map_length in Hx. exact Hx. }
      destruct (HF i Hlt) as (a & Ha). unfold returned in Ha. rewrite Ha in Hi. injection Hi as <-. reflexivity. }
    unfold todo. clear - Hall. induction ts' as [|p ts IH]; cbn; auto. rewrite Hall by (left; auto). apply IH. intros q Hq. apply Hall. right; auto. }
  rewrite Ht, app_nil_r in Hp. exact Hp.
Qed.
Print Assumptions C92_counters_atomic.

(** ** A case, and the lost update *)
Definition rbC : list string := ["rule=a:user %u:word% in"; "rule=b:user %u:word% out"; "rule=:n %n:number%"]%string.
Definition rqC : list (text * fields) := [(L "user bob out", []); (L "user eve in", []); (L "n 5x", [])].
Definition cxC : ctx := match load0 no_opts rbC with EOk (cx, _) => cx | EUb _ => {| c_nodes := []; c_root := 0; c_types := []; c_annots := []; c_prefix := None; c_opts := no_opts; c_version := 0%N; c_file := []; c_line := 0%N |} end.
(** round robin, 40 rounds *)
Definition rrC : list nat := List.concat (repeat [0; 1; 2] 60).
Example C92_ex : c_annots cxC = [] /\
  (forall atomic i, i < 3 -> exists a, returned (snd (run_threads atomic rrC cxC (calls 50 env0 cxC rqC))) i a) /\
  returned (snd (run_threads false rrC cxC (calls 50 env0 cxC rqC))) 0
    (true, [(L "u", JStr (L "bob")); (L "event.tags", JArr [JStr (L "b")])]) /\
  returned (snd (run_threads false rrC cxC (calls 50 env0 cxC rqC))) 2
    (false, [(L "originalmsg", JStr (L "n 5x")); (L "unparsed-data", JStr (L "x"))]).
Proof.
  split; [vm_compute; reflexivity|]. split; [|split; vm_compute; reflexivity].
  intros [|] [|[|[|i]]] Hi; try lia; eexists; vm_compute; reflexivity.
Qed.

(** Without atomic increments visits get lost (the data race on the counters is real):
    after the same calls the counters differ from those of the calls made in turn. *)
Theorem C92_counters_refuted : ~ (forall fuel e cx reqs sched cx' ts', c_annots cx = [] ->
  run_threads false sched cx (calls fuel e cx reqs) = (cx', ts') ->
  (forall i, i < List.length reqs -> exists a, returned ts' i a) ->
  history fuel e cx reqs = EOk cx').
Proof.
  intros HH. specialize (HH 50 env0 cxC rqC rrC _ _ ltac:(vm_compute; reflexivity) (surjective_pairing _) (fun i Hi => proj1 (proj2 C92_ex) false i Hi)).
  assert (HN : (match history 50 env0 cxC rqC with EOk c => map (option_map n_called) (c_nodes c) | EUb _ => [] end)
             = map (option_map n_called) (c_nodes (fst (run_threads false rrC cxC (calls 50 env0 cxC rqC))))) by (rewrite HH; reflexivity).
  vm_compute in HN. discriminate.
Qed.
