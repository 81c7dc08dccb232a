(** * Prop_Tool: the command line tool (C60-C66).

    [tool_normalize], [tool], [settings], [option_]: Tool.v. [tool_lines], [line_text],
    [results], [number], [with_records], [without_tag]: ToolSpec.v. *)
From Verif Require Import Base Time Parsers Engine Pdag Samp Enc TestEnv Tool ToolSpec EngineSpec BaseFacts FieldFacts10 EngineFacts EngineFacts2 EngineFacts3 EngineHist ToolFacts.
From Coq Require Import ZifyBool ZifyNat ZifyN.

Lemma tool_normalize_run fuel e s cx inp ls : tool_lines inp ls ->
  match run_lines fuel e s cx 0 ls with
  | EOk rs => exists notes cx', tool_normalize fuel e s cx inp = EOk (out_of rs, notes, cx') /\
      notes = (if s_nbrUnparsed s && N.ltb 0 (number Unparsed rs) then [unparsable (number Unparsed rs)] else [])
         ++ (if N.ltb 0 (number Dropped rs) then [wrong_tag (number Dropped rs)] else [])
         ++ (if s_summary s then [summary (number Parsed rs + number Unparsed rs) (number Parsed rs) (number Unparsed rs)] else [])
  | EUb u => tool_normalize fuel e s cx inp = EUb u
  end.
Proof.
  intros HL. pose proof (tool_loop_run fuel e s cx inp ls HL (S (List.length inp)) cx no_counts 0 ltac:(lia) (same_ctx_refl cx)) as H.
  unfold tool_normalize. destruct (tool_loop (S (List.length inp)) fuel e s cx no_counts 0 inp) as [[[out k] cx']|u]; cbn [vis3 ebind] in *; destruct (run_lines fuel e s cx 0 ls) as [rs|u'].
  - injection H as -> ->. eexists. exists cx'. split; [reflexivity|]. rewrite total_numbers. reflexivity.
  - discriminate.
  - discriminate.
  - injection H as ->. reflexivity.
Qed.
Lemma tool_run_inv fuel e s cx inp ls out notes cx' : tool_lines inp ls -> tool_normalize fuel e s cx inp = EOk (out, notes, cx') ->
  exists rs, run_lines fuel e s cx 0 ls = EOk rs /\ out = out_of rs /\
      notes = (if s_nbrUnparsed s && N.ltb 0 (number Unparsed rs) then [unparsable (number Unparsed rs)] else [])
         ++ (if N.ltb 0 (number Dropped rs) then [wrong_tag (number Dropped rs)] else [])
         ++ (if s_summary s then [summary (number Parsed rs + number Unparsed rs) (number Parsed rs) (number Unparsed rs)] else []).
Proof.
  intros HL H. pose proof (tool_normalize_run fuel e s cx inp ls HL) as H1. destruct (run_lines fuel e s cx 0 ls) as [rs|u]; [|congruence].
  destruct H1 as (n & c & H1 & H2). rewrite H1 in H. injection H as <- <- <-. exists rs. auto.
Qed.

(** Every input is made of lines in one way only. *)
Fixpoint split_lines (t cur : text) : list text :=
  match t with
  | [] => match rev cur with [] => [] | _ => [removelast (rev cur)] end
  | c :: t' => if ceq c (chr 10) then rev cur :: split_lines t' [] else split_lines t' (c :: cur)
  end.
Lemma tool_lines_total inp : exists ls, tool_lines inp ls.
Proof.
  assert (H : forall n t, List.length t <= n -> exists ls, tool_lines t ls).
  { induction n as [|n IH]; intros t Ht.
    - destruct t; [|cbn in Ht; lia]. exists []. apply (tl_terminated []). constructor.
    - assert (D : is_line t \/ exists a b, t = a ++ chr 10 :: b /\ is_line a).
      { clear. induction t as [|c t IH]; [left; intros []|]. destruct (ceq c (chr 10)) eqn:E.
        - apply ceq_true in E as ->. right. exists [], t. split; auto. intros [].
        - assert (Hc : c <> chr 10) by (intros ->; rewrite ceq_refl in E; discriminate). destruct IH as [IH|(a & b & -> & Ha)]; [left; intros [H|H]; auto|right; exists (c :: a), b; split; auto; intros [H|H]; auto]. }
      destruct D as [D|(a & b & -> & Ha)].
      + destruct t as [|c t _] using rev_ind; [exists []; apply (tl_terminated []); constructor|]. exists ([] ++ [t]). apply (tl_unterminated [] t c); [constructor|exact D].
      + destruct (IH b) as [ls Hls]; [rewrite app_length in Ht; cbn [List.length] in Ht; lia|]. exists (a :: ls). destruct Hls as [ls HF|ls l c HF Hl].
        * replace (a ++ chr 10 :: as_input ls) with (as_input (a :: ls)) by (unfold as_input; cbn [flat_map]; rewrite <- app_assoc; reflexivity). apply tl_terminated. constructor; auto.
        * replace (a ++ chr 10 :: as_input ls ++ l ++ [c]) with (as_input (a :: ls) ++ l ++ [c]) by (unfold as_input; cbn [flat_map]; rewrite <- !app_assoc; reflexivity).
          change (a :: ls ++ [l]) with ((a :: ls) ++ [l]). apply tl_unterminated; auto. }
  apply (H (List.length inp) inp). lia.
Qed.

(** ** C60 *)
(** Every line is normalized exactly once, in order, on its own (with the context as it was at
    the start), and what is printed is what these lines give, one after the other. *)
Theorem C60_every_line_once : forall fuel e s cx inp ls out notes cx',
  tool_lines inp ls -> tool_normalize fuel e s cx inp = EOk (out, notes, cx') ->
  exists rs, results fuel e s cx 0 ls rs /\ out = List.concat (map snd rs).
Proof.
  intros fuel e s cx inp ls out notes cx' HL H. apply (tool_run_inv _ _ _ _ _ _ _ _ _ HL) in H as (rs & H1 & H2 & _). exists rs. split; [apply run_lines_ok; exact H1|exact H2].
Qed.
Print Assumptions C60_every_line_once.
(** This covers every input. *)
Theorem C60_every_input_has_lines : forall inp, exists ls, tool_lines inp ls.
Proof. exact tool_lines_total. Qed.

(** Without -L the output for two inputs one after the other (the first ending with a line
    feed) is the output for the first and then the output for the second. *)
Lemma line_fun_nbr fuel e s cx n n' l : s_lineNbr s = false -> line_fun fuel e s cx n l = line_fun fuel e s cx n' l.
Proof. intros H. unfold line_fun, amendLineNbr. rewrite H. reflexivity. Qed.
Lemma run_lines_nbr fuel e s cx ls : s_lineNbr s = false -> forall n n', run_lines fuel e s cx n ls = run_lines fuel e s cx n' ls.
Proof. intros H. induction ls as [|l ls IH]; intros n n'; cbn [run_lines]; [reflexivity|]. rewrite (line_fun_nbr fuel e s cx (N.succ n) (N.succ n') l H), (IH (N.succ n) (N.succ n')). reflexivity. Qed.
Lemma as_input_app a b : as_input (a ++ b) = as_input a ++ as_input b.
Proof. unfold as_input. apply flat_map_app. Qed.
Lemma tool_lines_app ls inp2 ls2 : Forall is_line ls -> tool_lines inp2 ls2 -> tool_lines (as_input ls ++ inp2) (ls ++ ls2).
Proof.
  intros H [ls2' H2|ls2' l c H2 Hl].
  - rewrite <- as_input_app. apply tl_terminated. apply Forall_app. auto.
  - rewrite (app_assoc (as_input ls)), <- as_input_app, (app_assoc ls). apply tl_unterminated; auto. apply Forall_app. auto.
Qed.
Theorem C60_inputs_add_up : forall fuel e s cx ls inp2 out1 n1 cx1 out2 n2 cx2,
  Forall is_line ls -> s_lineNbr s = false ->
  tool_normalize fuel e s cx (as_input ls) = EOk (out1, n1, cx1) -> tool_normalize fuel e s cx inp2 = EOk (out2, n2, cx2) ->
  exists n cx', tool_normalize fuel e s cx (as_input ls ++ inp2) = EOk (out1 ++ out2, n, cx').
Proof.
  intros fuel e s cx ls inp2 out1 n1 cx1 out2 n2 cx2 HF HN H1 H2. destruct (tool_lines_total inp2) as [ls2 HL2].
  apply (tool_run_inv _ _ _ _ _ ls) in H1 as (r1 & E1 & -> & _); [|apply tl_terminated; exact HF]. destruct (tool_run_inv _ _ _ _ _ ls2 _ _ _ HL2 H2) as (r2 & E2 & -> & _).
  pose proof (tool_normalize_run fuel e s cx _ _ (tool_lines_app ls inp2 ls2 HF HL2)) as H. rewrite run_lines_app, E1 in H. cbn [ebind] in H.
  rewrite (run_lines_nbr fuel e s cx ls2 HN _ 0), E2 in H. cbn [ebind] in H. destruct H as (n & c & H & _). exists n, c. rewrite H. unfold out_of. rewrite map_app, concat_app. reflexivity.
Qed.
Print Assumptions C60_inputs_add_up.

(** ** C61: -p and -P *)
(** If the tool runs through without these options, it does with each of them, and the records
    it prints are divided between -p and -P. *)
Lemma line_fun_records fuel e s cx nbr l f out : s_parsed s = true -> s_unparsed s = true -> line_fun fuel e s cx nbr l = EOk (f, out) ->
  line_fun fuel e (with_records true false s) cx nbr l = EOk (f, match f with Parsed => out | _ => [] end) /\
  line_fun fuel e (with_records false true s) cx nbr l = EOk (f, match f with Unparsed => out | _ => [] end).
Proof.
  intros HP HU. unfold line_fun. cbn [with_records s_tag s_parsed s_unparsed]. destruct (visible (normalize fuel e cx (cstr (uncr l)) [])) as [[ok o]|u]; cbn [ebind]; [|discriminate].
  destruct (eventHasTag e o (s_tag s)) as [[|]|u]; cbn [ebind]; try discriminate; [|intros [= <- <-]; auto]. rewrite HP, HU.
  change (outputEvent e (with_records true false s)) with (outputEvent e s). change (outputEvent e (with_records false true s)) with (outputEvent e s).
  change (amendLineNbr (with_records false true s)) with (amendLineNbr s).
  destruct (obj_get o (L "unparsed-data")); intros H; apply ebind_ok in H as (t & H & [= <- <-]); rewrite H; auto.
Qed.
Theorem C61_parsed_or_unparsed : forall fuel e s cx inp ls out notes cx',
  s_parsed s = true -> s_unparsed s = true -> tool_lines inp ls ->
  tool_normalize fuel e s cx inp = EOk (out, notes, cx') ->
  exists rs n1 cx1 n2 cx2,
    results fuel e s cx 0 ls rs /\ out = List.concat (map snd rs) /\
    tool_normalize fuel e (with_records true false s) cx inp = EOk (List.concat (map snd (filter (fun r => same_fate Parsed (fst r)) rs)), n1, cx1) /\
    tool_normalize fuel e (with_records false true s) cx inp = EOk (List.concat (map snd (filter (fun r => same_fate Unparsed (fst r)) rs)), n2, cx2).
Proof.
  intros fuel e s cx inp ls out notes cx' HP HU HL H. apply (tool_run_inv _ _ _ _ _ _ _ _ _ HL) in H as (rs & H1 & -> & _).
  assert (HR : forall nbr ls rs, run_lines fuel e s cx nbr ls = EOk rs -> exists rp ru,
    run_lines fuel e (with_records true false s) cx nbr ls = EOk rp /\ run_lines fuel e (with_records false true s) cx nbr ls = EOk ru /\
    out_of rp = out_of (filter (fun r => same_fate Parsed (fst r)) rs) /\ out_of ru = out_of (filter (fun r => same_fate Unparsed (fst r)) rs)).
  { clear - HP HU. intros nbr ls. revert nbr. induction ls as [|l ls IH]; intros nbr rs H; cbn [run_lines] in *; [injection H as <-; exists [], []; auto|].
    apply ebind_ok in H as ([f out] & H1 & H). apply ebind_ok in H as (rs' & H2 & [= <-]). apply IH in H2 as (rp & ru & E1 & E2 & E3 & E4).
    apply line_fun_records in H1 as [L1 L2]; auto. rewrite L1, L2, E1, E2. cbn [ebind]. eexists. eexists. split; [reflexivity|]. split; [reflexivity|].
    unfold out_of in *. cbn [map snd List.concat filter fst]. destruct f; cbn [same_fate map snd List.concat app]; rewrite E3, E4; auto. }
  apply HR in H1 as HR1. destruct HR1 as (rp & ru & E1 & E2 & E3 & E4).
  pose proof (tool_normalize_run fuel e (with_records true false s) cx inp ls HL) as A. rewrite E1 in A. destruct A as (n1 & c1 & A & _).
  pose proof (tool_normalize_run fuel e (with_records false true s) cx inp ls HL) as B. rewrite E2 in B. destruct B as (n2 & c2 & B & _).
  exists rs, n1, c1, n2, c2. split; [apply run_lines_ok; exact H1|]. split; [reflexivity|]. rewrite E3 in A. rewrite E4 in B. auto.
Qed.
Print Assumptions C61_parsed_or_unparsed.

(** A line counts as unparsed if ln_normalize fails, and as parsed if it succeeds, unless the
    event has a field named unparsed-data. *)
Theorem C61_verdict_of_the_library : forall fuel e s cx nbr l f out msg ok o cx',
  line_result fuel e s cx nbr l f out -> line_text l msg -> normalize fuel e cx (cstr msg) [] = EOk (ok, o, cx') ->
  (ok = false -> f <> Parsed) /\ (ok = true -> obj_get o (L "unparsed-data") = None -> f <> Unparsed).
Proof.
  intros fuel e s cx nbr l f out msg ok o cx' (msg' & ok' & o' & cx2 & HT & HN & HF) HM HN'.
  apply line_text_fun in HT, HM. subst msg msg'. rewrite HN in HN'. injection HN' as <- <- <-. split.
  - intros -> ->. destruct HF as (_ & HF & _). unfold normalize in HN. destruct (normalizeRec _ _ _ _ _ _ _ _) as [[ok s1]|u]; cbn [ebind] in HN; [|discriminate].
    destruct ok.
    + destruct (r_end s1); [|discriminate]. repeat (apply ebind_ok in HN as (? & _ & HN)). discriminate.
    + destruct (Nat.ltb _ _); [discriminate|]. injection HN as <- _.
      assert (HG : forall o k v, obj_get (obj_add o k v) k = Some v).
      { clear. induction o as [|[k' v'] o IH]; intros k v; cbn; [rewrite text_eqb_refl; auto|]. destruct (text_eqb k k') eqn:E; cbn; rewrite E; auto. }
      rewrite HG in HF. discriminate.
  - intros _ HG ->. destruct HF as (_ & HF & _). auto.
Qed.
Print Assumptions C61_verdict_of_the_library.

(** ** C62: raw output *)
(** With -e raw and no record or tag option the output is the input, byte for byte (lines
    without NUL bytes and carriage returns at the end). *)
Theorem C62_raw_is_the_input : forall fuel e s cx ls out notes cx',
  s_fmt s = f_raw -> s_parsed s = true -> s_unparsed s = true -> s_tag s = None ->
  Forall (fun l => is_line l /\ line_text l l /\ ~ In NUL l) ls ->
  tool_normalize fuel e s cx (as_input ls) = EOk (out, notes, cx') -> out = as_input ls.
Proof.
  intros fuel e s cx ls out notes cx' HF HP HU HT HL H.
  apply (C60_every_line_once fuel e s cx _ ls) in H as (rs & HR & ->); [|apply tl_terminated; eapply Forall_impl; [|exact HL]; intros l (HH & _); exact HH].
  revert HR HL. generalize 0%N. clear - HF HP HU HT. intros nbr HR. induction HR as [nbr|nbr l ls f out rs HR HRs IH]; intros HL; [reflexivity|].
  apply Forall_cons_iff in HL as [(_ & Hl & Hz) HL]. cbn [map snd List.concat]. unfold as_input in *. cbn [flat_map]. rewrite IH; auto. f_equal.
  destruct HR as (msg & ok & o & cx' & HM & _ & HR). apply line_text_fun in HM, Hl. assert (EM : msg = l) by congruence. clear HM Hl. subst msg.
  assert (HX : forall o t, event_text e s o l t -> t = l). { intros o0 t. unfold event_text. rewrite HF. intros ->. apply cstr_id. exact Hz. }
  destruct f.
  - destruct HR as (_ & _ & HR & _). destruct (HR HP) as (t & H1 & ->). rewrite (HX _ _ H1). reflexivity.
  - destruct HR as (_ & _ & HR & _). destruct (HR HU) as (t & H1 & ->). rewrite (HX _ _ H1). reflexivity.
  - destruct HR as [HR _]. rewrite HT in HR. destruct HR. exact I.
Qed.
Print Assumptions C62_raw_is_the_input.

(** ** C63: -t *)
(** With a tag the tool prints what it prints without the tag for the lines whose event has it. *)
Inductive keeps (P : text -> Prop) : list text -> list text -> Prop :=
| kp_nil : keeps P [] []
| kp_in : forall l ls ls', P l -> keeps P ls ls' -> keeps P (l :: ls) (l :: ls')
| kp_out : forall l ls ls', ~ P l -> keeps P ls ls' -> keeps P (l :: ls) ls'.
Definition tagged_line (fuel : nat) (e : env) (cx : ctx) (tag : option text) (l : text) : Prop :=
  exists msg ok o cx', line_text l msg /\ normalize fuel e cx (cstr msg) [] = EOk (ok, o, cx') /\ has_tag e o tag.
Theorem C63_only_tagged_lines : forall fuel e s cx ls out notes cx',
  s_lineNbr s = false -> Forall is_line ls -> tool_normalize fuel e s cx (as_input ls) = EOk (out, notes, cx') ->
  exists ls' n cx2, keeps (tagged_line fuel e cx (s_tag s)) ls ls' /\
    tool_normalize fuel e (without_tag s) cx (as_input ls') = EOk (out, n, cx2).
Proof.
  intros fuel e s cx ls out notes cx' HN HL H. apply (tool_run_inv _ _ _ _ _ ls) in H as (rs & H1 & -> & _); [|apply tl_terminated; exact HL].
  assert (HR : forall ls rs nbr, run_lines fuel e s cx nbr ls = EOk rs -> exists ls' rs', keeps (tagged_line fuel e cx (s_tag s)) ls ls' /\
     run_lines fuel e (without_tag s) cx 0 ls' = EOk rs' /\ out_of rs' = out_of rs).
  { clear - HN. induction ls as [|l ls IH]; intros rs nbr H; cbn [run_lines] in H; [injection H as <-; exists [], []; split; [constructor|]; auto|].
    apply ebind_ok in H as ([f out] & H1 & H). apply ebind_ok in H as (rs' & H2 & [= <-]). apply IH in H2 as (ls' & rs2 & K & E1 & E2).
    assert (HA : forall n, amendLineNbr (without_tag s) n = amendLineNbr s n) by reflexivity.
    unfold line_fun in H1. destruct (normalize fuel e cx (cstr (uncr l)) []) as [[[ok o] cx']|u] eqn:En; cbn [ebind visible] in H1; [|discriminate].
    destruct (eventHasTag e o (s_tag s)) as [tg|u] eqn:Et; cbn [ebind] in H1; [|discriminate]. pose proof (eventHasTag_ok _ _ _ _ Et) as HT. destruct tg.
    - exists (l :: ls'), ((f, out) :: rs2). split; [apply kp_in; auto; exists (uncr l), ok, o, cx'; split; [apply line_text_uncr|]; split; auto; apply HT; reflexivity|].
      split; [|unfold out_of in *; cbn [map snd List.concat]; congruence]. cbn [run_lines].
      assert (EL : line_fun fuel e (without_tag s) cx (N.succ 0) l = EOk (f, out)).
      { unfold line_fun. rewrite En. cbn [ebind visible without_tag s_tag eventHasTag s_parsed s_unparsed]. change (outputEvent e (without_tag s)) with (outputEvent e s).
        unfold amendLineNbr in *. cbn [without_tag s_lineNbr]. rewrite HN in H1 |- *. exact H1. }
      rewrite EL. cbn [ebind]. rewrite (run_lines_nbr fuel e (without_tag s) cx ls' HN (N.succ 0) 0), E1. reflexivity.
    - injection H1 as <- <-. exists ls', rs2. split; [apply kp_out; auto; intros (m & ok2 & o2 & c2 & HM & HN2 & HT2); apply line_text_fun in HM; subst m; rewrite En in HN2; injection HN2 as <- <- <-; apply HT in HT2; discriminate|].
      split; auto. }
  apply HR in H1 as (ls' & rs' & K & E1 & E2). exists ls'.
  assert (HL' : Forall is_line ls'). { clear - K HL. induction K; auto; apply Forall_cons_iff in HL as [? ?]; auto. }
  pose proof (tool_normalize_run fuel e (without_tag s) cx _ ls' (tl_terminated ls' HL')) as H. rewrite E1 in H. destruct H as (n & c & H & _). exists n, c. split; auto. rewrite H, E2. reflexivity.
Qed.
Print Assumptions C63_only_tagged_lines.
(** With a tag nothing is printed for a message that does not match. *)
Theorem C63_no_unparsed : forall fuel e s cx nbr l f out tag msg o cx',
  s_tag s = Some tag -> line_result fuel e s cx nbr l f out -> line_text l msg -> normalize fuel e cx (cstr msg) [] = EOk (false, o, cx') -> f = Dropped /\ out = [].
Proof.
  intros fuel e s cx nbr l f out tag msg o cx' HT (msg' & ok & o' & cx2 & HM' & HN' & HF) HM HN. apply line_text_fun in HM, HM'. subst msg msg'. rewrite HN in HN'. injection HN' as <- <- <-.
  apply normalize_failure_any in HN as (k & _ & ->).
  assert (HX : ~ has_tag e (set_member (set_member [] (L "originalmsg") (JStr (cstr (uncr l)))) (L "unparsed-data") (JStr (cstr (skipn k (cstr (uncr l)))))) (s_tag s)).
  { rewrite HT. intros (l0 & x & s0 & H & _). vm_compute in H. discriminate H. }
  destruct f; [destruct HF as [HF _]; tauto|destruct HF as [HF _]; tauto|split; auto; apply HF].
Qed.
Print Assumptions C63_no_unparsed.

(** ** C64: the counters *)
(** Every line is counted once; the numbers reported are those of the lines parsed, unparsed
    and dropped. *)
Lemma numbers_add_up rs : (number Parsed rs + number Unparsed rs + number Dropped rs = N.of_nat (List.length rs))%N.
Proof. unfold number. induction rs as [|[f t] rs IH]; [reflexivity|]. cbn [filter fst]. destruct f; cbn [same_fate List.length] in *; lia. Qed.
Lemma results_length fuel e s cx nbr ls rs : results fuel e s cx nbr ls rs -> List.length rs = List.length ls.
Proof. induction 1; cbn [List.length]; auto. Qed.
Theorem C64_counts : forall fuel e s cx inp ls out notes cx',
  tool_lines inp ls -> tool_normalize fuel e s cx inp = EOk (out, notes, cx') ->
  exists rs, results fuel e s cx 0 ls rs /\ (number Parsed rs + number Unparsed rs + number Dropped rs = N.of_nat (List.length ls))%N /\
    (forall n, In (unparsable n) notes <-> s_nbrUnparsed s = true /\ (0 < n)%N /\ n = number Unparsed rs) /\
    (forall n, In (wrong_tag n) notes <-> (0 < n)%N /\ n = number Dropped rs) /\
    (forall n p u, In (summary n p u) notes <-> s_summary s = true /\ p = number Parsed rs /\ u = number Unparsed rs /\ n = (p + u)%N) /\
    (forall c, ~ In (complaint c) notes).
Proof.
  intros fuel e s cx inp ls out notes cx' HL H. apply (tool_run_inv _ _ _ _ _ _ _ _ _ HL) in H as (rs & H1 & -> & ->). apply run_lines_ok in H1. exists rs.
  split; [exact H1|]. split; [rewrite numbers_add_up; f_equal; eapply results_length; exact H1|].
  destruct (s_nbrUnparsed s), (N.ltb_spec 0 (number Unparsed rs)) as [U|U], (N.ltb_spec 0 (number Dropped rs)) as [D|D], (s_summary s); cbn [andb app];
    (split; [|split; [|split]]); intros; cbn [In];
    (split; [intros H; repeat (destruct H as [H|H]; try discriminate H); try contradiction; try (injection H; intros; subst; auto)|]) || idtac;
    try (intros (A & B & C); try discriminate A; subst; try lia; auto; fail); try (intros (A & B & C & E); try discriminate A; subst; auto; fail); try (intros (A & B); subst; try lia; auto; fail);
    try (intros H; repeat (destruct H as [H|H]; try discriminate H); contradiction).
Qed.
Print Assumptions C64_counts.

(** ** C65: options, rulebase and exit code *)
Definition sets_records (o : option_) : bool := match o with o_p | o_P => true | _ => false end.
Definition sets_rulebase (o : option_) : bool := match o with o_r _ | o_R _ => true | _ => false end.
(** Exit code 0 or 1; with 1 nothing is printed; with 0 a rulebase was given (once, or several
    times the same way), it loaded, and the output is that of the lines of the input. *)
Theorem C65_exit_code : forall lfuel fuel e q l inp code out notes,
  tool lfuel fuel e q l inp = EOk (code, out, notes) ->
  (code = 1%Z /\ out = [] /\ exists c, notes = [complaint c]) \/
  (code = 0%Z /\ exists m rb cx cx', options start_state l = Some m /\ m_repo m = Some rb /\
     ((m_used m = 1%Z /\ loadFile e q lfuel (initCtx (m_opts m)) rb = EOk (cx, true)) \/
      (m_used m <> 1%Z /\ m_used m <> (-1)%Z /\ loadString e q lfuel (initCtx (m_opts m)) rb = EOk (cx, true))) /\
     tool_normalize fuel e (m_set m) cx inp = EOk (out, notes, cx')).
Proof.
  intros lfuel fuel e q l inp code out notes H. unfold tool in H. destruct (options start_state l) as [m|] eqn:Eo; [|injection H as <- <- <-; left; eauto].
  destruct (m_repo m) as [rb|] eqn:Er; [|injection H as <- <- <-; left; eauto]. destruct (Z.eqb_spec (m_used m) (-1)) as [E1|E1]; [injection H as <- <- <-; left; eauto|].
  apply ebind_ok in H as ([cx ok] & HL & H). destruct ok; cbn [negb] in H; [|injection H as <- <- <-; left; eauto].
  apply ebind_ok in H as ([[o2 n2] cx'] & HN & H). injection H as <- <- <-. right. split; auto. exists m, rb, cx, cx'. split; auto. split; auto. split; auto.
  destruct (Z.eqb_spec (m_used m) 1) as [E2|E2]; [left|right]; auto.
Qed.
Print Assumptions C65_exit_code.
(** -r and -R once each, in either order: refused. *)
Lemma options_app a b : forall m, options m (a ++ b) = match options m a with Some m' => options m' b | None => None end.
Proof. induction a as [|o a IH]; intros m; cbn [app options]; auto. destruct (one_option m o); auto. Qed.
Lemma options_rulebase l : forall m m', existsb sets_rulebase l = false -> options m l = Some m' -> m_used m' = m_used m /\ m_repo m' = m_repo m.
Proof.
  induction l as [|o l IH]; intros m m' HE H; cbn [options existsb] in *; [injection H as <-; auto|]. apply orb_false_iff in HE as [Ho HE].
  destruct (one_option m o) as [m1|] eqn:E1; [|discriminate]. destruct (IH _ _ HE H) as [-> ->]. clear IH H HE.
  destruct o; cbn [sets_rulebase one_option] in *; try discriminate; try (injection E1 as <-; auto; fail).
  - repeat (match type of E1 with (if ?b then _ else _) = _ => destruct b end); injection E1 as <-; auto.
  - destruct (generic_option (m_opts m) a); [|discriminate]. injection E1 as <-. auto.
Qed.
Theorem C65_two_rulebases : forall lfuel fuel e q a x b y c inp,
  existsb sets_rulebase a = false -> existsb sets_rulebase b = false -> existsb sets_rulebase c = false ->
  (exists n, tool lfuel fuel e q (a ++ o_r x :: b ++ o_R y :: c) inp = EOk (1%Z, [], [complaint n])) /\
  (exists n, tool lfuel fuel e q (a ++ o_R x :: b ++ o_r y :: c) inp = EOk (1%Z, [], [complaint n])).
Proof.
  intros lfuel fuel e q a x b y c inp Ha Hb Hc.
  assert (HU : forall m o1 o2, options start_state (a ++ o1 :: b ++ o2 :: c) = Some m -> (o1 = o_r x /\ o2 = o_R y) \/ (o1 = o_R x /\ o2 = o_r y) -> m_used m = (-1)%Z).
  { intros m o1 o2 H HO. rewrite options_app in H. destruct (options start_state a) as [m1|] eqn:E1; [|discriminate]. destruct (options_rulebase _ _ _ Ha E1) as [U1 _].
    cbn [options] in H. destruct (one_option m1 o1) as [m2|] eqn:E2; [|discriminate]. rewrite options_app in H. destruct (options m2 b) as [m3|] eqn:E3; [|discriminate]. destruct (options_rulebase _ _ _ Hb E3) as [U3 _].
    cbn [options] in H. destruct (one_option m3 o2) as [m4|] eqn:E4; [|discriminate]. destruct (options_rulebase _ _ _ Hc H) as [-> _].
    destruct HO as [[-> ->]|[-> ->]]; cbn [one_option] in E2, E4; rewrite U1 in E2; injection E2 as <-; rewrite U3 in E4; injection E4 as <-; reflexivity. }
  split; unfold tool; match goal with |- context[options start_state ?l] => destruct (options start_state l) as [m|] eqn:E end; eauto; (destruct (m_repo m); [|eauto]); rewrite (HU _ _ _ E); cbn; eauto.
Qed.
Print Assumptions C65_two_rulebases.
(** The last of -p and -P counts. *)
Lemma options_records l : forall m m', existsb sets_records l = false -> options m l = Some m' -> s_parsed (m_set m') = s_parsed (m_set m) /\ s_unparsed (m_set m') = s_unparsed (m_set m).
Proof.
  induction l as [|o l IH]; intros m m' HE H; cbn [options existsb] in *; [injection H as <-; auto|]. apply orb_false_iff in HE as [Ho HE].
  destruct (one_option m o) as [m1|] eqn:E1; [|discriminate]. destruct (IH _ _ HE H) as [-> ->]. clear IH H HE.
  destruct o; cbn [sets_records one_option] in *; try discriminate; try (injection E1 as <-; auto; fail).
  - repeat (match type of E1 with (if ?b then _ else _) = _ => destruct b end); injection E1 as <-; auto.
  - destruct (Z.eqb (m_used m) 2); injection E1 as <-; auto.
  - destruct (Z.eqb (m_used m) 1); injection E1 as <-; auto.
  - destruct (generic_option (m_opts m) a); [|discriminate]. injection E1 as <-. auto.
Qed.
Theorem C65_last_record_option : forall a o b m, sets_records o = true -> existsb sets_records b = false -> options start_state (a ++ o :: b) = Some m ->
  (o = o_p -> s_parsed (m_set m) = true /\ s_unparsed (m_set m) = false) /\ (o = o_P -> s_parsed (m_set m) = false /\ s_unparsed (m_set m) = true).
Proof.
  intros a o b m Ho Hb H. rewrite options_app in H. destruct (options start_state a) as [m1|]; [|discriminate]. cbn [options] in H.
  destruct o; try discriminate; cbn [one_option] in H; apply options_records in H as [-> ->]; auto; cbn; split; intros; try discriminate; auto.
Qed.
Print Assumptions C65_last_record_option.

(** Every option sets what it says and nothing else. *)
Lemma word_app A (f : option_ -> option A) d a o : last_word f d (a ++ [o]) = match f o with Some x => x | None => last_word f d a end.
Proof. unfold last_word. rewrite fold_left_app. reflexivity. Qed.
Lemma ex_app (f : option_ -> bool) a o : existsb f (a ++ [o]) = (existsb f a || f o)%bool.
Proof. rewrite existsb_app. cbn [existsb]. rewrite orb_false_r. reflexivity. Qed.
Theorem C65_every_option : forall l,
  if existsb bad_option l then options start_state l = None
  else exists m, options start_state l = Some m /\ m_set m = wanted l /\ m_opts m = wanted_opts l /\
    match rb_file l, rb_string l with
    | None, None => m_repo m = None
    | Some f, None => m_repo m = Some f /\ m_used m = 1%Z
    | None, Some s => m_repo m = Some s /\ m_used m = 2%Z
    | Some _, Some _ => m_repo m <> None
    end.
Proof.
  assert (H : forall l, if existsb bad_option l then options start_state l = None
    else exists m, options start_state l = Some m /\ m_set m = wanted l /\ m_opts m = wanted_opts l /\
    match rb_file l, rb_string l with
    | None, None => m_repo m = None /\ m_used m = 0%Z
    | Some f, None => m_repo m = Some f /\ m_used m = 1%Z
    | None, Some s => m_repo m = Some s /\ m_used m = 2%Z
    | Some _, Some _ => m_repo m <> None
    end).
  2:{ intros l. specialize (H l). destruct (existsb bad_option l); [exact H|]. destruct H as (m & A & B & C & D). exists m. repeat split; auto. destruct (rb_file l), (rb_string l); tauto. }
  induction l as [|o l IH] using rev_ind; [cbn; eexists; repeat split; reflexivity|]. rewrite ex_app, options_app. destruct (existsb bad_option l); cbn [orb].
  { rewrite IH. destruct (bad_option o); [reflexivity|reflexivity]. }
  destruct IH as (m & -> & B & C & D). cbn [options]. unfold wanted, wanted_opts, rb_file, rb_string in *. rewrite !word_app, !ex_app.
  destruct o; cbn [bad_option one_option generic]; rewrite ?orb_false_r, ?orb_true_r;
    try (eexists; split; [reflexivity|]; rewrite B, C; cbn [m_set m_opts m_repo m_used s_parsed s_unparsed s_summary s_nbrUnparsed s_lineNbr s_flatTags s_encFmt s_tag s_fmt]; repeat split; exact D).
  - unfold format_named, formats. cbn [find fst]. destruct (text_eqb a (L "json")); [|destruct (text_eqb a (L "xml")); [|destruct (text_eqb a (L "cee-syslog")); [|destruct (text_eqb a (L "csv")); [|destruct (text_eqb a (L "raw"))]]]];
      (eexists; split; [reflexivity|]; rewrite ?B, ?C; cbn [m_set m_opts m_repo m_used s_parsed s_unparsed s_summary s_nbrUnparsed s_lineNbr s_flatTags s_encFmt s_tag s_fmt option_map snd]; repeat split; auto).
  - eexists. split; [reflexivity|]. destruct (Z.eqb_spec (m_used m) 2) as [E|E]; cbn [m_set m_opts m_repo m_used]; (split; [exact B|]; split; [exact C|]).
    + destruct (last_word _ None l) in D |- *; destruct (last_word _ None l) in D |- *; try (destruct D as [D1 D2]); try congruence; auto; rewrite ?D1; discriminate.
    + destruct (last_word _ None l) in D |- *; destruct (last_word _ None l) in D |- *; try (destruct D as [D1 D2]); try congruence; auto; discriminate.
  - eexists. split; [reflexivity|]. destruct (Z.eqb_spec (m_used m) 1) as [E|E]; cbn [m_set m_opts m_repo m_used]; (split; [exact B|]; split; [exact C|]).
    + destruct (last_word _ None l) in D |- *; destruct (last_word _ None l) in D |- *; try (destruct D as [D1 D2]); try congruence; auto; rewrite ?D1; discriminate.
    + destruct (last_word _ None l) in D |- *; destruct (last_word _ None l) in D |- *; try (destruct D as [D1 D2]); try congruence; auto; discriminate.
  - unfold generic_option. cbn [existsb]. destruct (text_eqb a (L "allowRegex")) eqn:E1.
    { apply text_eqb_true in E1. subst a. eexists. split; [reflexivity|]. rewrite B, C. cbn. rewrite !orb_false_r. auto. }
    destruct (text_eqb a (L "addExecPath")) eqn:E2.
    { apply text_eqb_true in E2. subst a. eexists. split; [reflexivity|]. rewrite B, C. cbn. rewrite !orb_false_r. auto. }
    destruct (text_eqb a (L "addOriginalMsg")) eqn:E3.
    { apply text_eqb_true in E3. subst a. eexists. split; [reflexivity|]. rewrite B, C. cbn. rewrite !orb_false_r, !orb_true_r. auto. }
    destruct (text_eqb a (L "addRule")) eqn:E4.
    { apply text_eqb_true in E4. subst a. eexists. split; [reflexivity|]. rewrite B, C. cbn. rewrite !orb_false_r, !orb_true_r. auto. }
    destruct (text_eqb a (L "addRuleLocation")) eqn:E5; cbn [orb negb]; [|reflexivity].
    apply text_eqb_true in E5. subst a. eexists. split; [reflexivity|]. rewrite B, C. cbn. rewrite !orb_false_r, !orb_true_r. auto.
  - reflexivity.
Qed.
Print Assumptions C65_every_option.

(** ** Cases that meet the hypotheses *)
Definition lf : ascii := chr 10.
Definition rbtool : text := lines ["rule=t1:user %u:word%"; "rule=t2,t3:count %n:number%"]%string.
Definition in1 : list text := [L "user bob"; L "count 7" ++ [chr 13]; L "what"; []; L "count x"].
Definition set1 : settings := {| s_parsed := true; s_unparsed := true; s_summary := true; s_nbrUnparsed := true; s_lineNbr := false; s_flatTags := false; s_encFmt := None; s_tag := None; s_fmt := f_xml |}.
Definition cxtool : ctx := match loadString env0 isort 100 (initCtx no_opts) rbtool with EOk (cx, _) => cx | _ => initCtx no_opts end.
Example C60_ex : tool_lines (as_input in1) in1 /\
  match tool_normalize 50 env0 set1 cxtool (as_input in1) with
  | EOk (out, notes, _) => out = lines ["<event><event.tags><tag>t1</tag></event.tags><field name=""u""><value>bob</value></field></event>";
       "<event><event.tags><tag>t3</tag><tag>t2</tag></event.tags><field name=""n""><value>7</value></field></event>";
       "<event><field name=""originalmsg""><value>what</value></field><field name=""unparsed-data""><value>what</value></field></event>";
       "<event><field name=""originalmsg""><value></value></field><field name=""unparsed-data""><value></value></field></event>";
       "<event><field name=""originalmsg""><value>count x</value></field><field name=""unparsed-data""><value>x</value></field></event>"]%string
      /\ notes = [unparsable 3; summary 5 2 3]
  | _ => False end.
Proof.
  split; [apply tl_terminated; repeat constructor; intros H; vm_compute in H; intuition discriminate|]. vm_compute. auto.
Qed.

Definition set_raw (tag : option text) : settings := {| s_parsed := true; s_unparsed := true; s_summary := true; s_nbrUnparsed := true; s_lineNbr := true; s_flatTags := false; s_encFmt := None; s_tag := tag; s_fmt := f_raw |}.
Example C61_ex : match tool_normalize 50 env0 (with_records true false (set_raw None)) cxtool (as_input in1), tool_normalize 50 env0 (with_records false true (set_raw None)) cxtool (as_input in1) with
  | EOk (p, _, _), EOk (u, _, _) => p = lines ["user bob"; "count 7"]%string /\ u = lines ["what"; ""; "count x"]%string | _, _ => False end.
Proof. vm_compute. auto. Qed.
Example C62_ex : Forall (fun l => is_line l /\ line_text l l /\ ~ In NUL l) [L "user bob"; []; L "what"] /\
  match tool_normalize 50 env0 (set_raw None) cxtool (as_input [L "user bob"; []; L "what"]) with EOk (out, _, _) => out = as_input [L "user bob"; []; L "what"] | _ => False end.
Proof.
  split; [|vm_compute; auto]. repeat constructor; try (intros H; vm_compute in H; intuition discriminate);
  intros l' H; apply (f_equal (fun t => last t NUL)) in H; rewrite last_last in H; vm_compute in H; discriminate H.
Qed.
Example C63_ex : match tool_normalize 50 env0 (set_raw (Some (L "t3"))) cxtool (as_input in1) with EOk (out, notes, _) => out = lines ["count 7"]%string /\ notes = [wrong_tag 4; summary 1 1 0] | _ => False end.
Proof. vm_compute. auto. Qed.
Example C65_ex : (exists n, tool 100 50 env0 isort [o_H; o_R rbtool; o_p; o_e (L "raw")] (as_input in1) = EOk (0%Z, lines ["user bob"; "count 7"]%string, n)) /\
  tool 100 50 env0 isort [o_R (L "rule=")] (as_input in1) = EOk (0%Z, lines ["";"";"";"";""]%string, []).
Proof. split; [eexists|]; vm_compute; reflexivity. Qed.

(** *** What does not hold *)
(** A last line without line feed loses its last character. *)
Theorem C60_last_line_refuted : match tool_normalize 50 env0 (set_raw None) cxtool (as_input [L "what"] ++ L "user bob") with
  | EOk (out, _, _) => out = lines ["what"; "user bo"]%string | _ => False end.
Proof. vm_compute. reflexivity. Qed.
(** A matching message counts as unparsed if the event has a field of that name, which with a
    json field merged into the event the message itself can bring about. *)
Theorem C61_unparsed_data_refuted :
  match loadString env0 isort 100 (initCtx no_opts) (lines ["rule=:%.:json%"]%string) with
  | EOk (cx, true) =>
      (exists o cx', normalize 50 env0 cx (L "{""unparsed-data"":1}") [] = EOk (true, o, cx')) /\
      match tool_normalize 50 env0 (with_records true false (set_raw None)) cx (as_input [L "{""unparsed-data"":1}"]) with
      | EOk (out, notes, _) => out = [] /\ notes = [unparsable 1; summary 1 0 1] | _ => False end
  | _ => False end.
Proof. vm_compute. split; [eexists; eexists; reflexivity|auto]. Qed.
(** Both -r and -R, but three times in all: accepted. *)
Theorem C65_three_times_refuted : exists out n, tool 100 50 env0 isort [o_R rbtool; o_r (L "x"); o_R rbtool; o_e (L "raw")] (as_input in1) = EOk (0%Z, out, n).
Proof. eexists. eexists. vm_compute. reflexivity. Qed.
