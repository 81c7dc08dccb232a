(** * ToolSpec2: what the options -d, -s, -S and -x of the command line tool are to do. *)
From Verif Require Import Base Parsers Engine Pdag Samp Tool ToolSpec Tool2.

(** The options without these *)
Definition plain_options (l : list option2) : list option_ := flat_map (fun o => match o with o_plain p => [p] | _ => [] end) l.
Definition asks_version (o : option2) : bool := match o with o_V => true | _ => false end.
(** Where the texts asked for go: the last of several options counts. An empty name - for
    statistics the name "-" - is the standard output. *)
Definition goes_to (std a : text) : dest := if text_eqb a std then to_stdout else to_file a.
Definition last_of (f : option2 -> option dest) (l : list option2) : option dest :=
  fold_left (fun r o => match f o with Some d => Some d | None => r end) l None.
Definition dot_to : list option2 -> option dest := last_of (fun o => match o with o_d a => Some (goes_to [] a) | _ => None end).
Definition sdot_to : list option2 -> option dest := last_of (fun o => match o with o_x a => Some (goes_to [] a) | _ => None end).
Definition stats_to : list option2 -> option dest := last_of (fun o => match o with o_s a | o_S a => Some (goes_to (L "-") a) | _ => None end).
Definition extended (l : list option2) : bool := existsb (fun o => match o with o_S _ => true | _ => false end) l.
(** The files named, in order *)
Definition files_named (l : list option2) : list text :=
  flat_map (fun o => match (match o with o_d a | o_x a => goes_to [] a | o_s a | o_S a => goes_to (L "-") a | _ => to_stdout end) with
                     | to_file f => [f] | to_stdout => [] end) l.
Definition can_open (opens : text -> bool) (l : list option2) : Prop := Forall (fun f => opens f = true) (files_named l).
(** The part of a text that goes to the standard output, or to a file *)
Definition printed (d : option dest) (t : text) : text := match d with Some to_stdout => t | _ => [] end.
Definition written (d : option dest) (t : text) : list (text * text) := match d with Some (to_file f) => [(f, t)] | _ => [] end.

(** How often the normalizer has been at a node, and had to go back from it *)
Definition called_at (h : list (option node)) (i : nat) : N := match nth_error h i with Some (Some n) => n_called n | _ => 0%N end.
Definition back_at (h : list (option node)) (i : nat) : N := match nth_error h i with Some (Some n) => n_backtracked n | _ => 0%N end.
Definition sum (l : list N) : N := fold_right N.add 0%N l.
(** [cx'] is [cx] with the use that each line of the input alone makes of [cx] added up (the
    counters have 32 bits), and nothing else. *)
Definition use_of_lines (fuel : nat) (e : env) (cx cx' : ctx) (ls : list text) : Prop :=
  exists cxs, Forall2 (fun l c => exists msg ok o, line_text l msg /\ normalize fuel e cx (cstr msg) [] = EOk (ok, o, c)) ls cxs /\
    forall i, match nth_error (c_nodes cx) i, nth_error (c_nodes cx') i with
              | Some (Some m), Some (Some n) =>
                  n_parsers n = n_parsers m /\ n_term n = n_term m /\ n_refcnt n = n_refcnt m /\
                  n_called n = (sum (map (fun c => called_at (c_nodes c) i) cxs) mod 2 ^ 32)%N /\
                  n_backtracked n = (sum (map (fun c => back_at (c_nodes c) i) cxs) mod 2 ^ 32)%N
              | Some (Some _), _ | _, Some (Some _) => False
              | _, _ => True
              end.
