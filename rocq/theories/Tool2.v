(** * Tool2: the command line tool with the options that show the rulebase and its use
      (lognormalizer.c 345-535 with -d, -s, -S, -x and -V), and the error messages of the
      library on stderr.

    Simplifications, beyond those of Tool.v: -v (debug output) is left out; an output file that
    cannot be opened is given by [opens]; files are streams: [x_files] lists what is written to
    the files, by their names (what a file holds if two streams write to it is not said), and
    [x_opened] the files that were opened, that is, emptied; they are not files of the
    rulebase. The rulebase is a version 2 rulebase (the loader of Samp.v says so otherwise). *)
From Verif Require Import Base Time Parsers Engine Pdag Samp Enc Tool Err Stat.

(** lognormalizer.c 365, 369-404: the options of Tool.v and the others *)
Inductive option2 : Type :=
| o_plain (o : option_) | o_d (a : text) | o_x (a : text) | o_s (a : text) | o_S (a : text) | o_V.

(** where a picture or a report goes *)
Inductive dest : Type := to_stdout | to_file (name : text).

(** lognormalizer.c 65, 351-356: the variables of main, fpDOT, fpStats, fpStatsDOT and
    extendedStats among them *)
Record mstate2 : Type := {
  m_base : mstate; m_dot : option dest; m_stats : option dest; m_sdot : option dest; m_ext : bool; m_opened : list text }.
Definition start2 : mstate2 :=
  {| m_base := start_state; m_dot := None; m_stats := None; m_sdot := None; m_ext := false; m_opened := [] |}.

(** What is written to stderr *)
Inductive note2 : Type := lib (m : message) | own (n : note) | version_info.
(** What a run gives *)
Record outcome : Type := {
  x_code : Z; x_stdout : text; x_err : list note2; x_files : list (text * text); x_opened : list text }.
Definition stops (m : mstate2) (l : list note2) : outcome :=
  {| x_code := 1%Z; x_stdout := []; x_err := l; x_files := []; x_opened := m_opened m |}.

Section Main.
Variable opens : text -> bool.

(** lognormalizer.c 369-404 and the switch of Tool.v: the new state, or the end of the run *)
Definition open_dest (m : mstate2) (std a : text) (msg : string) (k : dest -> list text -> mstate2) : mstate2 + outcome :=
  if text_eqb a std then inl (k to_stdout (m_opened m))
  else if opens a then inl (k (to_file a) (m_opened m ++ [a]))
  else inr (stops m [own (complaint msg)]).
Definition one_option2 (m : mstate2) (o : option2) : mstate2 + outcome :=
  let stats (m : mstate2) (a : text) :=
    open_dest m (L "-") a "Cannot open parser statistics file"
      (fun d fs => {| m_base := m_base m; m_dot := m_dot m; m_stats := Some d; m_sdot := m_sdot m; m_ext := m_ext m; m_opened := fs |}) in
  match o with
  | o_V => inr (stops m [version_info])
  | o_d a => open_dest m [] a "Cannot open DOT file"
      (fun d fs => {| m_base := m_base m; m_dot := Some d; m_stats := m_stats m; m_sdot := m_sdot m; m_ext := m_ext m; m_opened := fs |})
  | o_x a => open_dest m [] a "Cannot open statistics DOT file"
      (fun d fs => {| m_base := m_base m; m_dot := m_dot m; m_stats := m_stats m; m_sdot := Some d; m_ext := m_ext m; m_opened := fs |})
  | o_S a => stats {| m_base := m_base m; m_dot := m_dot m; m_stats := m_stats m; m_sdot := m_sdot m; m_ext := true; m_opened := m_opened m |} a
  | o_s a => stats m a
  | o_plain o =>
      match one_option (m_base m) o with
      | Some b => inl {| m_base := b; m_dot := m_dot m; m_stats := m_stats m; m_sdot := m_sdot m; m_ext := m_ext m; m_opened := m_opened m |}
      | None => inr (stops m [own (complaint "usage or invalid option")])
      end
  end.
(** lognormalizer.c 365-472, the loop *)
Fixpoint options2 (m : mstate2) (l : list option2) : mstate2 + outcome :=
  match l with
  | [] => inl m
  | o :: l' => match one_option2 m o with inl m' => options2 m' l' | inr x => inr x end
  end.

(** a text on its way: what of it goes to stdout, and to which file *)
Definition on_stdout (d : option dest) (t : text) : text := match d with Some to_stdout => t | _ => [] end.
Definition on_file (d : option dest) (t : text) : list (text * text) := match d with Some (to_file f) => [(f, t)] | _ => [] end.

Variables (lfuel fuel : nat) (e : env) (badint : json -> bool) (qsort : list prs -> list prs).
(** the text of "%p" *)
Variable addr : nat -> text.

(** lognormalizer.c 492-503: loading; the messages go to errCallBack (71-76) *)
Definition load_rb (m : mstate) (rb : text) : er (ctx * bool) :=
  if Z.eqb (m_used m) 1 then loadFile e qsort lfuel (initCtx (m_opts m)) rb else loadString e qsort lfuel (initCtx (m_opts m)) rb.
Definition m_load_rb (m : mstate) (rb : text) : list message :=
  if Z.eqb (m_used m) 1 then m_loadFile e badint qsort lfuel (initCtx (m_opts m)) rb else m_loadString e badint qsort lfuel (initCtx (m_opts m)) rb.

(** lognormalizer.c 508-525: what is done with the loaded rulebase. pdag.c 523, 529: the
    identifiers of the nodes are set at the end of loading (here after all components are
    optimized; the code sets those of a component before it optimizes the next). No node is
    marked visited before (Stat.v: only the functions there set the flag). *)
Definition show_or_run (m : mstate2) (errs : list message) (cx : ctx) (inp : text) : er outcome :=
  do* ids := setAllIDs (c_nodes cx) [] (comps cx) in
  match m_dot m with
  | Some d =>                                       (* genDOT; ret = 1 *)
      do* (t, _) := dotGraph addr cx [] in
      EOk {| x_code := 1%Z; x_stdout := on_stdout (Some d) t; x_err := map lib errs; x_files := on_file (Some d) t; x_opened := m_opened m |}
  | None =>
      do* (out, notes, cx') := tool_normalize fuel e (m_set (m_base m)) cx inp in
      do* (st, vis) := match m_stats m with
                       | Some _ => fullPdagStats cx' (m_ext m) ids []
                       | None => EOk ([], [])
                       end in
      do* (sd, _) := match m_sdot m with
                     | Some _ => fullStatsDOT addr cx' vis
                     | None => EOk ([], vis)
                     end in
      EOk {| x_code := 0%Z; x_stdout := out ++ on_stdout (m_stats m) st ++ on_stdout (m_sdot m) sd;
             x_err := map lib errs ++ map own notes;
             x_files := on_file (m_stats m) st ++ on_file (m_sdot m) sd; x_opened := m_opened m |}
  end.

(** lognormalizer.c 345-535 [main] *)
Definition main (l : list option2) (inp : text) : er outcome :=
  match options2 start2 l with
  | inr x => EOk x
  | inl m =>
      match m_repo (m_base m) with
      | None => EOk (stops m [own (complaint "Samples repository or String must be given (-r or -R)")])
      | Some rb =>
          if Z.eqb (m_used (m_base m)) (-1) then EOk (stops m [own (complaint "Only use one rulebase (-r or -R)")])
          else
            do* (cx, ok) := load_rb (m_base m) rb in
            let errs := m_load_rb (m_base m) rb in
            if negb ok then EOk (stops m (map lib errs ++ [own (complaint "fatal error: cannot load rulebase")]))
            else show_or_run m errs cx inp
      end
  end.
End Main.
