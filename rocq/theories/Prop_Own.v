(** * C93, C94: the JSON objects of a call. *)
From Coq Require Import String.
From Verif Require Import Base BaseFacts Time Parsers Engine EngineFacts2 Own OwnSpec OwnFacts OwnRead TestEnv.
Local Open Scope list_scope.

(** Whatever the rulebase and the message: no call uses or gives up an object that has been
    freed. *)
Theorem C93_no_misuse : forall e cx msg fuel tg ev h R,
  exact h (ev :: R) -> (forall n t, tg n = Some t -> In t R) ->
  normalizeH e cx msg fuel tg ev h <> EUb UseAfterFree.
Proof.
  intros e cx msg fuel tg ev h R HE HT H. pose proof (normalizeH_fine e cx msg fuel tg ev h R HE HT) as HF. rewrite H in HF. apply HF. reflexivity.
Qed.
Print Assumptions C93_no_misuse.

(** After the call every object counts exactly the references there are: those of other
    objects, the caller's to the event, those held before, and the [lost] ones. *)
Theorem C93_counts : forall e cx msg fuel tg ev h R ok h' lost,
  exact h (ev :: R) -> (forall n t, tg n = Some t -> In t R) ->
  normalizeH e cx msg fuel tg ev h = EOk (ok, h', lost) ->
  exact h' (ev :: lost ++ R) /\ (tidy cx -> lost = []).
Proof.
  intros e cx msg fuel tg ev h R ok h' lost HE HT H. pose proof (normalizeH_fine e cx msg fuel tg ev h R HE HT) as HF. rewrite H in HF. exact HF.
Qed.
Print Assumptions C93_counts.

(** No leak: after any number of calls, the events given up, the memory is object for object
    what it was (and so are the tags of the rules, which the events have shared). *)
Theorem C93_no_leak : forall e cx fuel tg R msgs h, tidy cx ->
  exact h R -> acyclic h -> (forall n t, tg n = Some t -> In t R) ->
  serve e cx fuel tg msgs h <> EUb UseAfterFree /\
  forall oks lost h', serve e cx fuel tg msgs h = EOk (oks, lost, h') ->
    lost = [] /\ same_memory h h' /\ exact h' R /\ acyclic h'.
Proof.
  intros e cx fuel tg R msgs h HTd HE HA HT.
  assert (HF : fine (fun r => snd (fst r) = [] /\ same_memory h (snd r) /\ exact (snd r) R /\ acyclic (snd r)) (serve e cx fuel tg msgs h)).
  { revert h HE HA. induction msgs as [|m msgs IH]; intros h HE HA; cbn [serve].
    - cbn. split; auto. split; auto. intros x. reflexivity.
    - pose proof (call_memory e cx m fuel tg h R HTd HE HA HT) as HC. destruct (jalloc h (CObj [])) as [ev h1]. cbn [fst snd] in HC.
      eapply fine_bind; [exact HC|]. intros [[ok h2] lost] (HL & h3 & E3 & HE3 & HA3 & HM3). cbn [fst snd] in *. rewrite E3. cbn [ebind].
      eapply fine_bind; [apply IH; auto|]. intros [[oks losts] h4] (H1 & H2 & H3 & H4). cbn [fst snd fine] in *. subst. split; auto. split; auto.
      intros x. rewrite HM3. apply H2. }
  split.
  - intros E. rewrite E in HF. apply HF. reflexivity.
  - intros oks lost h' E. rewrite E in HF. exact HF.
Qed.
Print Assumptions C93_no_leak.

(** The heap of a loaded rulebase is as the theorems ask for. *)
Lemma jnew_acyclic v h R x h' : exact h R -> jnew v h = (x, h') -> acyclic h -> acyclic h'.
Proof. apply jnew_acyc. Qed.
Theorem C93_start : forall cx, let (xs, h) := tags_heap (c_nodes cx) [] in
  exact h (rulebase_refs xs) /\ acyclic h /\ forall n t, tags_at xs n = Some t -> In t (rulebase_refs xs).
Proof.
  intros cx. generalize (c_nodes cx) as ns. clear.
  assert (HG : forall ns h R, exact h R -> acyclic h -> let (xs, h') := tags_heap ns h in exact h' (rulebase_refs xs ++ R) /\ acyclic h').
  { induction ns as [|n ns IH]; intros h R HE HA; cbn [tags_heap]; [split; auto|].
    destruct (match n with Some n => match n_tags n with Some t => jnew t h | None => (None, h) end | None => (None, h) end) as [x h1] eqn:E1.
    assert (H1 : exact h1 (opt_list x ++ R) /\ acyclic h1).
    { destruct n as [n|]; [|injection E1 as <- <-; split; auto]. destruct (n_tags n) as [t|]; [|injection E1 as <- <-; split; auto].
      split; [apply (jnew_exact t h R x h1 HE E1)|eapply jnew_acyc; eauto]. }
    destruct H1 as (H1 & H2). specialize (IH h1 _ H1 H2). destruct (tags_heap ns h1) as [xs h2]. destruct IH as (H3 & H4). split; auto.
    cbn [rulebase_refs flat_map]. eapply exact_ext; [exact H3|]. intros y. unfold rulebase_refs. tm. lia. }
  intros ns. specialize (HG ns [] []). destruct (tags_heap ns []) as [xs h]. destruct HG as (H1 & H2).
  - split; [intros [|x]; reflexivity|]. intros x (o & Hx). destruct x; discriminate.
  - exists (fun _ => 0). intros x c y Hx. destruct x; discriminate.
  - rewrite app_nil_r in H1. split; auto. split; auto. intros n t Ht. unfold tags_at in Ht. unfold rulebase_refs. apply in_flat_map.
    destruct (nth_error xs n) as [x|] eqn:E; [|discriminate]. subst x. exists (Some t). split; [eapply nth_error_In; exact E|left; auto].
Qed.
Print Assumptions C93_start.

(** The tags of its rules can be read from the heap of a loaded rulebase. *)
Theorem C94_start_tags : forall cx, let (xs, h) := tags_heap (c_nodes cx) [] in
  forall i n t, get_node (c_nodes cx) i = EOk n -> n_tags n = Some t -> reads h (tags_at xs i) t.
Proof.
  intros cx. assert (H0 : exact [] []).
  { split; [intros [|x]; reflexivity|]. intros x (o & Hx). destruct x; discriminate. }
  pose proof (tags_heap_reads (c_nodes cx) [] [] H0) as HG. destruct (tags_heap (c_nodes cx) []) as [xs h]. destruct HG as (_ & HG).
  intros i n t Hi Ht. apply (HG i n t); auto. unfold get_node in Hi. destruct (nth_error (c_nodes cx) i) as [[m|]|]; congruence.
Qed.
Print Assumptions C94_start_tags.

(** The call on objects does what the call on values does: with an event that stands for
    [js0], and the tags of the rules readable, it gives the same answer, and the event then
    stands for the value the engine computes - sharing, replacing and freeing of parts
    notwithstanding. *)
Theorem C94_same_event : forall e cx msg fuel tg ev h R js0 ok o cx',
  exact h (ev :: R) -> ~ In ev (refs h) -> (forall n t, tg n = Some t -> In t R /\ t <> ev) ->
  (forall i n t, get_node (c_nodes cx) i = EOk n -> n_tags n = Some t -> reads h (tg i) t) ->
  reads h (Some ev) (JObj js0) ->
  normalize fuel e cx msg js0 = EOk (ok, o, cx') ->
  exists h' lost, normalizeH e cx msg fuel tg ev h = EOk (ok, h', lost) /\ reads h' (Some ev) (JObj o) /\
    forall v, reads h' (Some ev) v -> v = JObj o.
Proof.
  intros e cx msg fuel tg ev h R js0 ok o cx' HE HU HT HG Hr H.
  destruct (normalizeH_same e cx msg fuel tg ev h R js0 ok o cx' HE HU HT HG Hr H) as (h' & lost & E & Hr'). exists h', lost. split; auto. split; auto.
  intros v Hv. symmetry. apply (proj1 (reads_fun h') _ _ Hr' _ Hv).
Qed.
Print Assumptions C94_same_event.

(** No other object the application holds - an event of an earlier message, say - changes. *)
Theorem C94_others : forall e cx msg fuel tg ev h R ok h' lost i w,
  exact h (ev :: R) -> acyclic h -> ~ In ev (refs h) -> (forall n t, tg n = Some t -> In t R /\ t <> ev) ->
  normalizeH e cx msg fuel tg ev h = EOk (ok, h', lost) ->
  In i R -> i <> ev -> reads h (Some i) w -> reads h' (Some i) w.
Proof.
  intros e cx msg fuel tg ev h R ok h' lost i w HE HA HU HT H. exact (proj2 (proj2 (proj2 (normalizeH_others e cx msg fuel tg ev h R ok h' lost HE HA HU HT H))) i w).
Qed.
Print Assumptions C94_others.

(** Any number of calls after loading: the application reads the engine's answers and events,
    one after the other, whatever it gives up in between. *)
Theorem C94_session : forall e cx fuel msgs outs,
  Forall2 (fun m a => exists cx', normalize fuel e cx m [] = EOk (fst a, snd a, cx')) msgs outs ->
  let (xs, h) := tags_heap (c_nodes cx) [] in
  (exists h', session e cx fuel (tags_at xs) h msgs outs h') /\
  forall outs2 h2, session e cx fuel (tags_at xs) h msgs outs2 h2 -> outs2 = outs.
Proof.
  intros e cx fuel msgs outs HF. pose proof (C93_start cx) as H1. pose proof (C94_start_tags cx) as H2. destruct (tags_heap (c_nodes cx) []) as [xs h].
  destruct H1 as (HE & HA & HT). destruct (session_ok e cx fuel (tags_at xs) (rulebase_refs xs) HT msgs outs h [] HE HA H2 HF) as (lost & h' & HS & _).
  split; [eauto|]. intros outs2 h2 H3. apply (session_fun _ _ _ _ _ _ _ _ HS _ _ H3).
Qed.
Print Assumptions C94_session.

(** ** Cases *)
Definition cx93 (rb : list string) : ctx := match load0 no_opts rb with EOk (cx, _) => cx | EUb _ => {| c_nodes := []; c_root := 0; c_types := []; c_annots := []; c_prefix := None; c_opts := no_opts; c_version := 0%N; c_file := []; c_line := 0%N |} end.
Definition serve93 (rb msgs : list string) : er (list bool * list nat * (nat * nat)) :=
  let cx := cx93 rb in
  let (xs, h) := tags_heap (c_nodes cx) [] in
  do* (oks, lost, h') := serve env0 cx 60 (tags_at xs) (map L msgs) h in EOk (oks, lost, (live h, live h')).
Definition rb93 : list string := ["version=2"; "annotate=b:+k=""v"""; "rule=a:user %u:word% in"; "rule=b,c:user %.:json% out";
  "rule=:l %a:repeat{""parser"":[{""type"":""number"",""name"":"".""}],""while"":{""type"":""literal"",""text"":"",""}}%."]%string.

(** A check for [tidy]: a repeat's parser part has one field only. *)
Definition no_fields (cx : ctx) (a : nat) : bool := match get_node (c_nodes cx) a with EOk n => match n_parsers n with [] => true | _ => false end | EUb _ => true end.
Definition single (cx : ctx) (a : nat) : bool :=
  match get_node (c_nodes cx) a with EOk n => forallb (fun p => no_fields cx (p_child p)) (n_parsers n) | EUb _ => true end.
Definition tidyb (cx : ctx) : bool :=
  forallb (fun n => match n with None => true | Some n => forallb (fun p => match p_kind p with KCustom _ => false | KRepeat pn _ _ => single cx pn | KSimple _ => true end) (n_parsers n) end) (c_nodes cx).
Lemma no_fields_ok cx a p : no_fields cx a = true -> ~ field_from cx a p.
Proof.
  intros H (b & n & HL & Hn & Hp). unfold no_fields in H. destruct HL as [a|a m q b Hm Hq _].
  - rewrite Hn in H. destruct (n_parsers n); [destruct Hp|discriminate].
  - rewrite Hm in H. destruct (n_parsers m); [destruct Hq|discriminate].
Qed.
Lemma tidyb_ok cx : tidyb cx = true -> tidy cx.
Proof.
  intros H a n p Hn Hp. unfold tidyb in H. rewrite forallb_forall in H.
  assert (Hin : In (Some n) (c_nodes cx)).
  { unfold get_node in Hn. destruct (nth_error (c_nodes cx) a) as [[m|]|] eqn:E; try discriminate. injection Hn as ->. eapply nth_error_In; exact E. }
  specialize (H _ Hin). cbn in H. rewrite forallb_forall in H. specialize (H p Hp). destruct (p_kind p) as [m|pn wn pm|ti]; [exact I| |discriminate].
  intros q (b & n2 & HL & Hn2 & Hq) Hd. unfold single in H. destruct HL as [pn|pn m r b Hm Hr HL].
  - rewrite Hn2 in H. rewrite forallb_forall in H. specialize (H q Hq). intros q' Hq'. destruct (no_fields_ok _ _ _ H Hq').
  - rewrite Hm in H. rewrite forallb_forall in H. specialize (H r Hr). destruct (no_fields_ok cx (p_child r) q H). exists b, n2. auto.
Qed.
(** Matches with shared values (".", the elements of the array, tags, annotations), and
    messages that fail after values have been made. *)
Example C93_ex : tidy (cx93 rb93) /\
  serve93 rb93 ["user bob in"; "user {""a"":{""b"":[1,2]}} out"; "l 1,2,3."; "l 1,2"; "user"]%string = EOk ([true; true; true; false; false], [], (5, 5)).
Proof. split; [apply tidyb_ok; vm_compute; reflexivity|vm_compute; reflexivity]. Qed.

(** The engine's answers for such messages (tags, annotations and originalmsg included), as
    the session theorem asks for. *)
Definition msgs93 : list text := map L ["user bob in"; "user {""a"":{""b"":[1,2]}} out"; "l 1,2"]%string.
Definition answers_of (f : text -> er (bool * fields * ctx)) (ms : list text) : list (bool * fields) :=
  map (fun m => match f m with EOk (ok, o, _) => (ok, o) | EUb _ => (false, []) end) ms.
Definition answers_all (f : text -> er (bool * fields * ctx)) (ms : list text) : bool := forallb (fun m => match f m with EOk _ => true | EUb _ => false end) ms.
Lemma answers_ok f : forall ms, answers_all f ms = true -> Forall2 (fun m a => exists cx', f m = EOk (fst a, snd a, cx')) ms (answers_of f ms).
Proof.
  induction ms as [|m ms IH]; intros H; [constructor|]. cbn in H. apply andb_prop in H as (H1 & H2). constructor; [|exact (IH H2)].
  destruct (f m) as [[[ok o] cx']|u]; [exists cx'; reflexivity|discriminate].
Qed.
Definition f93 (m : text) := normalize 60 env0 (cx93 rb93) m [].
Example C94_ex : Forall2 (fun m a => exists cx', f93 m = EOk (fst a, snd a, cx')) msgs93 (answers_of f93 msgs93) /\
  nth_error (answers_of f93 msgs93) 1 = Some (true, [(L "a", JObj [(L "b", JArr [JInt 1; JInt 2])]); (L "event.tags", JArr [JStr (L "b"); JStr (L "c")]); (L "k", JStr (L "v"))]).
Proof. split; [apply (answers_ok f93); vm_compute; reflexivity|vm_compute; reflexivity]. Qed.

(** ** What does get lost *)
(** A field of a user-defined type that does not match: its value object is forgotten. *)
Theorem C93_type_refuted : exists rb msg, serve93 rb [msg] = EOk ([true], [1], (0, 1)).
Proof.
  exists ["version=2"; "type=@t:%a:number%,"; "rule=:x %u:@t%"; "rule=:x %r:rest%"]%string, "x 5"%string. vm_compute. reflexivity.
Qed.
Print Assumptions C93_type_refuted.
(** Two fields "." in one path of a repeat (refused in a plain list of fields, but not inside
    an alternative): one of the two references taken is forgotten. *)
Theorem C93_dots_refuted : exists rb msg, serve93 rb [msg] = EOk ([true], [3], (0, 1)).
Proof.
  exists ["version=2"; "rule=:%a:repeat{""parser"":{""type"":""alternative"",""parser"":[[{""type"":""number"",""name"":"".""},{""type"":""literal"",""text"":""/""},{""type"":""word"",""name"":"".""}],{""type"":""rest"",""name"":"".""}]},""while"":{""type"":""literal"",""text"":"",""}}%"]%string, "5/a"%string.
  vm_compute. reflexivity.
Qed.
Print Assumptions C93_dots_refuted.
