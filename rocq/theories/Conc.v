(** * Conc: several calls of ln_normalize on one context at the same time.
    The engine of [Engine.v] once more, this time as a program that touches the shared
    context in single steps, and the machine that runs several such programs in any order.
    Proof-free. *)
From Verif Require Import Base Time Parsers Engine.

(** What a call reads of a graph node (pdag.h 106-131 [struct ln_pdag]); the counters
    (pdag.h 117-121) are only written. *)
Record view : Type := {
  v_parsers : list prs; v_term : bool; v_tags : option json; v_file : option text; v_line : N;
}.
Definition view_of (n : node) : view :=
  {| v_parsers := n_parsers n; v_term := n_term n; v_tags := n_tags n; v_file := n_file n; v_line := n_line n |}.

(** A program: its next access to the context and what it does with the answer.
    [PInc] is the ++ of pdag.c 1552 and 1587 (counter [called] or [backtracked] of node [i]):
    a load (or, on the machine with atomic increments, both in one step), after which the program is a [PSto] that stores the value computed from it. *)
Inductive prog (A : Type) : Type :=
| PRet (a : A)
| PUb (u : ub)
| PRead (i : nat) (k : view -> prog A)
| PType (ti : nat) (k : nat -> prog A)
| POpts (k : opts -> prog A)
| PInc (i : nat) (called : bool) (k : prog A)
| PSto (i : nat) (called : bool) (v : N) (k : prog A).
Arguments PRet {A}. Arguments PUb {A}. Arguments PRead {A}. Arguments PType {A}.
Arguments POpts {A}. Arguments PInc {A}. Arguments PSto {A}.

Fixpoint pbind {A B} (p : prog A) (f : A -> prog B) : prog B :=
  match p with
  | PRet a => f a
  | PUb u => PUb u
  | PRead i k => PRead i (fun n => pbind (k n) f)
  | PType ti k => PType ti (fun n => pbind (k n) f)
  | POpts k => POpts (fun o => pbind (k o) f)
  | PInc i b k => PInc i b (pbind k f)
  | PSto i b v k => PSto i b v (pbind k f)
  end.
Notation "'go' x ':=' e 'in' k" := (pbind e (fun x => k))
  (at level 200, x pattern, e at level 100, k at level 200, right associativity).

(** Computations that do not touch the context. *)
Definition lift {A} (x : er A) : prog A := match x with EOk a => PRet a | EUb u => PUb u end.

Section NormalizeP.
Variable e : env.
Variable msg : text.

Section StepP.
Variable rec : nat -> nat -> bool -> rst -> prog (bool * rst).

(** parser.c 3212-3295 [ln_v2_parseRepeat], as [Engine.repeat_loop]. *)
Fixpoint repeat_loopP (fuel : nat) (pn wn : nat) (permit : bool) (strt lkg : nat)
  (arr : option (list json)) (s : rst) : prog (option (nat * json) * rst) :=
  match fuel with
  | O => PUb OutOfFuel
  | S f =>
      let done pos a s' :=
        PRet (Some (pos, match a with Some l => JArr l | None => JNull end), s') in
      go (ok, s1) := rec pn strt true (set_end (set_js s (Some [])) None) in
      if negb ok then
        (if permit then done lkg arr s1 else PRet (None, s1))
      else
        let strt := r_pt s1 in
        let obj := match r_js s1 with Some o => o | None => [] end in
        let arr := Some ((match arr with Some l => l | None => [] end)
                         ++ [dot_value obj (JObj obj)]) in
        go (ok, s2) := rec wn strt true (set_end (set_js (set_pt s1 0) None) None) in
        if ok then repeat_loopP f pn wn permit (r_pt s2) strt arr s2
        else done strt arr s2
  end.

(** pdag.c 1395-1470 [tryParser], as [Engine.tryParser]; ctx->type_pdags (pdag.c 1441) is
    shared. *)
Definition tryParserP (rf : nat) (p : prs) (offs : nat) (s : rst)
  : prog (option (nat * json) * rst) :=
  let restore s' := set_end (set_js (set_pt s' (r_pt s)) (r_js s)) (r_end s) in
  let want := match p_name p with Some _ => true | None => false end in
  match p_kind p with
  | KCustom ti =>
      PType ti (fun tn =>
        go (ok, s1) := rec tn offs true (set_end (set_js s (Some [])) None) in
        PRet (if ok then Some (r_pt s1, JObj (match r_js s1 with Some o => o | None => [] end))
              else None, restore s1))
  | KRepeat pn wn permit =>
      go (o, s1) := repeat_loopP rf pn wn permit offs offs None s in
      PRet (match o with
            | Some (pos, v) => Some (pos, if want then v else JNull)
            | None => None end, restore s1)
  | KSimple m =>
      if Nat.ltb (List.length msg) offs then PUb OobOffset
      else match run_motif e m want offs (skipn offs msg) with
           | Ok (n, v) => PRet (Some (offs + n, v), s)
           | Bad _ => PRet (None, s)
           | Ub u => PUb u
           end
  end.

(** pdag.c 1560-1605: the loop over the parsers of a node. Parser number [j] is read from
    the node when its turn comes; [left] parsers are still to be tried. *)
Fixpoint parser_loopP (rf : nat) (nd : nat) (left j : nat) (offs : nat) (partial : bool)
  (lpt : nat) (s : rst) : prog (bool * rst) :=
  match left with
  | O => PRet (false, s)
  | S left' =>
      PRead nd (fun n =>
      match nth_error (v_parsers n) j with
      | None => PUb OobIndex
      | Some p =>
          go (o, s1) := tryParserP rf p offs s in
          match o with
          | None => parser_loopP rf nd left' (S j) offs partial lpt (set_pt s1 (Nat.max (r_pt s1) lpt))
          | Some (pos, v) =>
              go (ok, s2) := rec (p_child p) pos partial s1 in
              if ok then
                go js := lift (fixJSON p v (r_js s2)) in
                let s3 := set_js s2 js in
                POpts (fun o =>
                let s3 := if opt_rule o then set_rule s3 (r_rule s3 ++ mockup_of p) else s3 in
                PRet (true, set_pt s3 (Nat.max (r_pt s3) pos)))
              else
                PInc nd false
                  (let s3 := set_log s2 ((nd, false) :: r_log s2) in
                   parser_loopP rf nd left' (S j) offs partial pos (set_pt s3 (Nat.max (r_pt s3) pos)))
          end
      end)
  end.

(** pdag.c 1533-1620 [ln_normalizeRec], one level: ++called, the loop, then the terminal
    flag. *)
Definition norm_stepP (rf : nat) (nd offs : nat) (partial : bool) (s : rst) : prog (bool * rst) :=
  PRead nd (fun n =>
  PInc nd true
   (let s := set_log s ((nd, true) :: r_log s) in
    go (ok, s1) := parser_loopP rf nd (List.length (v_parsers n)) 0 offs partial (r_pt s) s in
    PRead nd (fun n =>
    if (v_term n && (Nat.eqb offs (List.length msg) || partial))%bool
    then PRet (true, set_end s1 (Some nd))
    else PRet (ok, s1)))).
End StepP.

(** pdag.c 1533-1620 [ln_normalizeRec]. *)
Fixpoint normalizeRecP (fuel : nat) (nd offs : nat) (partial : bool) (s : rst)
  : prog (bool * rst) :=
  match fuel with
  | O => PUb OutOfFuel
  | S f => norm_stepP (normalizeRecP f) f nd offs partial s
  end.

(** pdag.c 1236-1261, 1296-1298, as [Engine.add_metadata]. *)
Definition add_metadataP (o : opts) (n : view) (rule : text) (ev : fields) : er fields :=
  do* m1 := if opt_rule o then
              match filter (fun c => negb (ceq c NUL)) rule with
              | [] => EUb OobWrite
              | r => EOk [(L "mockup", JStr (rev r))]
              end
            else EOk [] in
  do* m2 := if opt_loc o then
              match v_file n with
              | None => EUb NullDeref
              | Some f => EOk [(L "location", JObj [(L "file", JStr (cstr f));
                                                   (L "line", JInt (wrap 32 (Z.of_N (v_line n))))])]
              end
            else EOk [] in
  match m1 ++ m2 with
  | [] => EOk ev
  | m => EOk (obj_add ev (L "metadata") (JObj [(L "rule", JObj m)]))
  end.

(** pdag.c 1621-1718 [ln_normalize], for a context without annotations (so ln_annotate
    returns at once, annot.c 225-226): a call in one thread. [root] is ctx->pdag. The
    result is success? and the event. *)
Definition normalizeP (fuel : nat) (root : nat) (js0 : fields) : prog (bool * fields) :=
  go (ok, s) := normalizeRecP fuel root 0 false
       {| r_pt := 0; r_js := Some js0; r_end := None; r_rule := []; r_log := [] |} in
  let o := match r_js s with Some o => o | None => [] end in
  if ok then
    match r_end s with
    | None => PUb NullDeref
    | Some en =>
        PRead en (fun n =>
        POpts (fun op =>
        let o := match v_tags n with
                 | None => o
                 | Some tags => obj_add o (L "event.tags") tags
                 end in
        let o := if opt_orig op then obj_add o (L "originalmsg") (JStr msg) else o in
        go o := lift (add_metadataP op n (r_rule s) o) in
        PRet (true, o)))
    end
  else if Nat.ltb (List.length msg) (r_pt s) then PUb OobRead
  else
    let o := obj_add o (L "originalmsg") (JStr msg) in
    PRet (false, obj_add o (L "unparsed-data") (JStr (cstr (skipn (r_pt s) msg)))).
End NormalizeP.

(** ** The machine *)

(** Storing into one counter of a node. *)
Definition put (n : node) (called : bool) (v : N) : node :=
  {| n_parsers := n_parsers n; n_term := n_term n; n_tags := n_tags n; n_refcnt := n_refcnt n;
     n_file := n_file n; n_line := n_line n;
     n_called := if called then v else n_called n;
     n_backtracked := if called then n_backtracked n else v |}.
Definition counter (n : node) (called : bool) : N := if called then n_called n else n_backtracked n.

(** One step of one thread on the shared context. [atomic]: the processor does the ++ of a
    counter in one step; otherwise in two, the load and the store. *)
Definition exec1 {A} (atomic : bool) (cx : ctx) (p : prog A) : ctx * prog A :=
  match p with
  | PRet _ | PUb _ => (cx, p)
  | PRead i k => (cx, match get_node (c_nodes cx) i with EOk n => k (view_of n) | EUb u => PUb u end)
  | PType ti k => (cx, match nth_error (c_types cx) ti with Some (_, tn) => k tn | None => PUb OobIndex end)
  | POpts k => (cx, k (c_opts cx))
  | PInc i b k =>
      match get_node (c_nodes cx) i with
      | EOk n => if atomic then (set_nodes cx (upd_node (c_nodes cx) i (fun n => put n b ((counter n b + 1) mod 2 ^ 32)%N)), k)
                 else (cx, PSto i b ((counter n b + 1) mod 2 ^ 32)%N k)
      | EUb u => (cx, PUb u)
      end
  | PSto i b v k => (set_nodes cx (upd_node (c_nodes cx) i (fun n => put n b v)), k)
  end.

(** Thread number [t] takes a turn (nothing happens if there is no such thread). *)
Fixpoint turn {A} (atomic : bool) (t : nat) (cx : ctx) (ts : list (prog A)) {struct ts} : ctx * list (prog A) :=
  match ts, t with
  | [], _ => (cx, [])
  | p :: ts', O => let (cx', p') := exec1 atomic cx p in (cx', p' :: ts')
  | p :: ts', S t' => let (cx', ts'') := turn atomic t' cx ts' in (cx', p :: ts'')
  end.

(** A schedule says whose turn it is, step by step. *)
Fixpoint run_threads {A} (atomic : bool) (sched : list nat) (cx : ctx) (ts : list (prog A)) : ctx * list (prog A) :=
  match sched with
  | [] => (cx, ts)
  | t :: sched' => let (cx', ts') := turn atomic t cx ts in run_threads atomic sched' cx' ts'
  end.
