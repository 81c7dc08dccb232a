(** * Stat: showing a rulebase: the DOT graph (pdag.c 1083-1197), statistics (pdag.c 536-690)
      and the identifiers of nodes (pdag.c 420-508).

    The flag "visited" of a node and its rb_id (pdag.h 113, 122) are kept outside the heap: the
    list [vis] of the nodes with the flag set, and the table [ids] of the identifiers (nodes
    that are not in the table have none). The recursion is bounded by fuel, as in Pdag.v. The
    text of "%p" for a node is a parameter. Statistics with ADVANCED_STATS (a compile-time
    option) are left out. *)
From Coq Require DecimalString.
From Verif Require Import Base Time Parsers Engine Pdag.

(** "%d" of a number that is not negative, and of any number *)
Definition show_nat (n : nat) : text := L (DecimalString.NilZero.string_of_uint (Nat.to_uint n)).
Definition show_Z (z : Z) : text := L (DecimalString.NilZero.string_of_int (Z.to_int z)).
(** padding on the left, as "%4d" and "%20s" do *)
Definition padl (w : nat) (t : text) : text := repeat " "%char (w - List.length t) ++ t.

Definition is_visited (vis : list nat) (i : nat) : bool := existsb (Nat.eqb i) vis.

Section Heap.
Variable h : list (option node).

(** pdag.c 176-184 [ln_pdagComponentClearVisited] *)
Fixpoint clearVisited (fuel : nat) (vis : list nat) (nd : nat) : er (list nat) :=
  match fuel with
  | O => EUb OutOfFuel
  | S f =>
      do* n := get_node h nd in
      (fix go (l : list prs) (vis : list nat) : er (list nat) :=
         match l with
         | [] => EOk vis
         | p :: l' => do* vis := clearVisited f vis (p_child p) in go l' vis
         end) (n_parsers n) (filter (fun j => negb (Nat.eqb nd j)) vis)
  end.
(** pdag.c 185-191 [ln_pdagClearVisited], for the components [l] *)
Fixpoint clearAll (vis : list nat) (l : list nat) : er (list nat) :=
  match l with
  | [] => EOk vis
  | i :: l' => do* vis := clearVisited (heap_fuel h) vis i in clearAll vis l'
  end.

Variable addr : nat -> text.
Definition dotAddPtr (i : nat) : text := "l"%char :: addr i.   (* 1083-1089 *)
(** pdag.c 1127-1132, 1175-1178: a literal, without backslashes and quotes *)
Definition dotLiteral (t : text) : text :=
  filter (fun c => negb (ceq c "\" || ceq c """")) (cstr t).
Definition dotData (p : prs) : er text :=
  if is_lit p then match p_kind p with KSimple (MLiteral t) => EOk (dotLiteral t) | _ => EUb NullDeref end
  else EOk [].
Definition eol : text := [chr 10].

(** pdag.c 1103-1112: the line of a node *)
Definition dotNode (i : nat) (n : node) : text :=
  dotAddPtr i ++ L " [ label=""" ++ show_Z (n_refcnt n) ++ L """" ++
  (match n_parsers n with [] => L " style=""bold""" | _ => [] end) ++ L "]" ++ eol.
(** pdag.c 1118-1135: the line of a field *)
Definition dotEdge (i : nat) (p : prs) (d : text) : text :=
  dotAddPtr i ++ L " -> " ++ dotAddPtr (p_child p) ++ L " [label=""" ++ parserName (p_kind p) ++ L ":" ++ d ++
  L """" ++ L " style=""dotted""]" ++ eol.
(** pdag.c 1094-1138 [ln_genDotPDAGGraphRec] *)
Fixpoint genDotRec (fuel : nat) (vis : list nat) (nd : nat) : er (text * list nat) :=
  match fuel with
  | O => EUb OutOfFuel
  | S f =>
      do* n := get_node h nd in
      if is_visited vis nd then EOk ([], vis) else
      do* (t, vis) :=
        (fix go (l : list prs) (vis : list nat) : er (text * list nat) :=
           match l with
           | [] => EOk ([], vis)
           | p :: l' =>
               do* d := dotData p in
               do* (t1, vis) := genDotRec f vis (p_child p) in
               do* (t2, vis) := go l' vis in
               EOk (dotEdge nd p d ++ t1 ++ t2, vis)
           end) (n_parsers n) (nd :: vis) in
      EOk (dotNode nd n ++ t, vis)
  end.
(** pdag.c 1141-1148 [ln_genDotPDAGGraph]; [comps] are the components of the context *)
Definition genDot (comps : list nat) (vis : list nat) (dag : nat) : er (text * list nat) :=
  do* vis := clearAll vis comps in
  do* (t, vis) := genDotRec (heap_fuel h) vis dag in
  EOk (L "digraph pdag {" ++ eol ++ t ++ L "}" ++ eol, vis).

(** pdag.c 1153-1185 [ln_genStatsDotPDAGGraphRec] *)
Definition sdotNode (i : nat) (n : node) : text :=
  dotAddPtr i ++ L " [ label=""" ++ show_Z (Z.of_N (n_called n)) ++ L ":" ++ show_Z (Z.of_N (n_backtracked n)) ++ L """" ++
  (match n_parsers n with [] => L " style=""bold""" | _ => [] end) ++ L "]" ++ eol.
Definition sdotEdge (i : nat) (p : prs) (d : text) : text :=
  dotAddPtr i ++ L " -> " ++ dotAddPtr (p_child p) ++ L " [label=""" ++
  (if is_lit p then d else parserName (p_kind p)) ++ L """ style=""dotted""]" ++ eol.
Fixpoint statsDotRec (fuel : nat) (vis : list nat) (nd : nat) : er (text * list nat) :=
  match fuel with
  | O => EUb OutOfFuel
  | S f =>
      do* n := get_node h nd in
      if is_visited vis nd then EOk ([], vis) else
      do* (t, vis) :=
        (fix go (l : list prs) (vis : list nat) : er (text * list nat) :=
           match l with
           | [] => EOk ([], vis)
           | p :: l' =>
               do* m := get_node h (p_child p) in
               if N.eqb (n_called m) 0 then go l' vis else
               do* d := dotData p in
               do* (t1, vis) := statsDotRec f vis (p_child p) in
               do* (t2, vis) := go l' vis in
               EOk (sdotEdge nd p d ++ t1 ++ t2, vis)
           end) (n_parsers n) (nd :: vis) in
      EOk (sdotNode nd n ++ t, vis)
  end.
(** pdag.c 1188-1201 [ln_genStatsDotPDAGGraph], [ln_fullPDagStatsDOT] *)
Definition statsDot (comps : list nat) (vis : list nat) (dag : nat) : er (text * list nat) :=
  do* vis := clearAll vis comps in
  do* (t, vis) := statsDotRec (heap_fuel h) vis dag in
  EOk (L "digraph pdag {" ++ eol ++ t ++ L "}" ++ eol, vis).

(** ** Statistics *)
(** pdag.c 539-548 [struct pdag_stats]; [st_types]: the entries of prs_cnt, counted by name *)
Record stats : Type := {
  st_nodes : nat; st_term : nat; st_parsers : nat; st_max : nat;
  st_per : list nat; st_100plus : nat; st_types : list (text * nat)
}.
(** the table pdag.c 70-103 *)
Definition type_table : list text := map L
  ["literal"; "repeat"; "date-rfc3164"; "date-rfc5424"; "number"; "float"; "hexnumber"; "kernel-timestamp";
   "whitespace"; "ipv4"; "ipv6"; "word"; "alpha"; "rest"; "op-quoted-string"; "quoted-string"; "date-iso";
   "time-24hr"; "time-12hr"; "duration"; "cisco-interface-spec"; "json"; "cee-syslog"; "mac48"; "cef";
   "v2-iptables"; "name-value-list"; "checkpoint-lea"; "string-to"; "char-to"; "char-sep"; "string"]%string.
Definition stats0 : stats :=
  {| st_nodes := 0; st_term := 0; st_parsers := 0; st_max := 0; st_per := repeat 0 100; st_100plus := 0;
     st_types := map (fun t => (t, 0)) type_table |}.
Fixpoint bump (l : list nat) (i : nat) : list nat :=
  match l, i with
  | x :: l', O => S x :: l'
  | x :: l', S i' => x :: bump l' i'
  | [], _ => []
  end.
(** pdag.c 558-568 *)
Definition count_node (n : node) (s : stats) : stats :=
  let k := List.length (n_parsers n) in
  {| st_nodes := S (st_nodes s); st_term := st_term s + (if n_term n then 1 else 0);
     st_parsers := st_parsers s + k; st_max := Nat.max (st_max s) k;
     st_per := if Nat.leb 100 k then st_per s else bump (st_per s) k;
     st_100plus := st_100plus s + (if Nat.leb 100 k then 1 else 0); st_types := st_types s |}.
(** pdag.c 572-573 *)
Definition count_type (p : prs) (s : stats) : stats :=
  match p_kind p with
  | KCustom _ => s
  | k => {| st_nodes := st_nodes s; st_term := st_term s; st_parsers := st_parsers s; st_max := st_max s;
            st_per := st_per s; st_100plus := st_100plus s;
            st_types := map (fun x => (fst x, if text_eqb (fst x) (parserName k) then S (snd x) else snd x)) (st_types s) |}
  end.
(** pdag.c 553-579 [ln_pdagStatsRec]: path length, counters, flags *)
Fixpoint statsRec (fuel : nat) (s : stats) (vis : list nat) (nd : nat) : er (nat * stats * list nat) :=
  match fuel with
  | O => EUb OutOfFuel
  | S f =>
      do* n := get_node h nd in
      if is_visited vis nd then EOk (0, s, vis) else
      do* (m, s, vis) :=
        (fix go (l : list prs) (m : nat) (s : stats) (vis : list nat) : er (nat * stats * list nat) :=
           match l with
           | [] => EOk (m, s, vis)
           | p :: l' =>
               do* (k, s, vis) := statsRec f (count_type p s) vis (p_child p) in
               go l' (Nat.max m k) s vis
           end) (n_parsers n) 0 (count_node n s) (nd :: vis) in
      EOk (S m, s, vis)
  end.

(** ** Identifiers *)

Definition id_of (ids : list (nat * text)) (i : nat) : option text :=
  match find (fun x => Nat.eqb (fst x) i) ids with Some (_, t) => Some t | None => None end.
Definition del_id (ids : list (nat * text)) (i : nat) : list (nat * text) := filter (fun x => negb (Nat.eqb (fst x) i)) ids.
Definition put_id (ids : list (nat * text)) (i : nat) (t : text) : list (nat * text) := (i, t) :: del_id ids i.

(** pdag.c 420-428 [deleteComponentID] *)
Fixpoint deleteIDs (fuel : nat) (ids : list (nat * text)) (nd : nat) : er (list (nat * text)) :=
  match fuel with
  | O => EUb OutOfFuel
  | S f =>
      do* n := get_node h nd in
      (fix go (l : list prs) (ids : list (nat * text)) : er (list (nat * text)) :=
         match l with
         | [] => EOk ids
         | p :: l' => do* ids := deleteIDs f ids (p_child p) in go l' ids
         end) (n_parsers n) (del_id ids nd)
  end.
(** pdag.c 442-462 [fixComponentID]: the new text *)
Fixpoint common (a b : text) : nat :=
  match a, b with
  | x :: a', y :: b' => if ceq x y then S (common a' b') else 0
  | _, _ => 0
  end.
Definition fixed_id (cur new : text) : text :=
  let i := common cur new in
  let i := if (Nat.leb 1 i && ceq (nth (i - 1) cur NUL) "%")%bool then i - 1 else i in
  firstn i cur ++ L "[" ++ skipn i cur ++ L "|" ++ skipn i new ++ L "]".
(** pdag.c 484-504: what a field adds to the identifier *)
Definition field_id (p : prs) : er text :=
  if is_lit p then
    match p_kind p with
    | KSimple (MLiteral t) =>
        EOk (match p_name p with
             | None => cstr t
             | Some nm => L "%" ++ nm ++ L ":" ++ parserName (p_kind p) ++ L ":" ++ cstr t ++ L "%"
             end)
    | _ => EUb NullDeref
    end
  else EOk (L "%" ++ (match p_name p with Some nm => nm | None => L "-" end) ++ L ":" ++ parserName (p_kind p) ++ L "%").
(** pdag.c 464-508 [ln_pdagComponentSetIDs] *)
Fixpoint setIDs (fuel : nat) (ids : list (nat * text)) (nd : nat) (prefix : text) : er (list (nat * text)) :=
  match fuel with
  | O => EUb OutOfFuel
  | S f =>
      do* n := get_node h nd in
      do* (prefix, ids) :=
        match id_of ids nd with
        | None => EOk (prefix, put_id ids nd prefix)
        | Some cur => let u := fixed_id cur prefix in
                      do* ids := deleteIDs (heap_fuel h) ids nd in EOk (u, put_id ids nd u)
        end in
      (fix go (l : list prs) (ids : list (nat * text)) : er (list (nat * text)) :=
         match l with
         | [] => EOk ids
         | p :: l' =>
             do* d := field_id p in
             do* ids := setIDs f ids (p_child p) (prefix ++ d) in go l' ids
         end) (n_parsers n) ids
  end.
(** pdag.c 515-534, the part of [ln_pdagOptimize] that sets identifiers *)
Fixpoint setAllIDs (ids : list (nat * text)) (comps : list nat) : er (list (nat * text)) :=
  match comps with
  | [] => EOk ids
  | i :: l => do* ids := setIDs (heap_fuel h) ids i [] in setAllIDs ids l
  end.

(** pdag.c 582-604 [ln_pdagStatsExtended]: the lines of the nodes that were used. An identifier
    that is missing is printed by "%s" of NULL. *)
Definition usage_line (ids : list (nat * text)) (i : nat) (n : node) : text :=
  show_Z (Z.of_N (n_called n)) ++ L ", " ++ show_Z (Z.of_N (n_backtracked n)) ++ L ", " ++
  (match id_of ids i with Some t => t | None => L "(null)" end) ++ eol.
Fixpoint usage (fuel : nat) (ids : list (nat * text)) (nd : nat) : er text :=
  match fuel with
  | O => EUb OutOfFuel
  | S f =>
      do* n := get_node h nd in
      do* t :=
        (fix go (l : list prs) : er text :=
           match l with
           | [] => EOk []
           | p :: l' =>
               do* m := get_node h (p_child p) in
               do* t1 := (if N.eqb (n_called m) 0 then EOk [] else usage f ids (p_child p)) in
               do* t2 := go l' in
               EOk (t1 ++ t2)
           end) (n_parsers n) in
      EOk ((if N.eqb (n_called n) 0 then [] else usage_line ids nd n) ++ t)
  end.

(** pdag.c 611-648 [ln_pdagStats] *)
Definition line (t : text) : text := t ++ eol.
Definition statsText (s : stats) (longest : nat) : text :=
  line (L "nodes.............: " ++ padl 4 (show_nat (st_nodes s))) ++
  line (L "terminal nodes....: " ++ padl 4 (show_nat (st_term s))) ++
  line (L "parsers entries...: " ++ padl 4 (show_nat (st_parsers s))) ++
  line (L "longest path......: " ++ padl 4 (show_nat longest)) ++
  line (L "Parser Type Counts:") ++
  flat_map (fun x => match snd x with O => [] | k => line (chr 9 :: padl 20 (fst x) ++ L ": " ++ show_nat k) end) (st_types s) ++
  line (L "Parsers per Node:") ++
  line (chr 9 :: L "max:" ++ chr 9 :: padl 4 (show_nat (st_max s))) ++
  flat_map (fun x => match snd x with O => [] | k => line (chr 9 :: show_nat (fst x) ++ L ":" ++ chr 9 :: padl 4 (show_nat k)) end)
    (combine (seq 0 (List.length (st_per s))) (st_per s)).
Definition pdagStats (extended : bool) (ids : list (nat * text)) (vis : list nat) (dag : nat) : er (text * list nat) :=
  do* (longest, s, vis) := statsRec (heap_fuel h) stats0 vis dag in
  if extended then
    do* vis := clearVisited (heap_fuel h) vis dag in
    do* u := usage (heap_fuel h) ids dag in
    EOk (statsText s longest ++ line (L "Usage Statistics:") ++ line (L "-----------------") ++
         line (L "called, backtracked, rule") ++ u, vis)
  else EOk (statsText s longest, vis).
End Heap.

(** pdag.c 657-690 [ln_fullPdagStats] (v2 rulebases) *)
Fixpoint typeStats (h : list (option node)) (ext : bool) (ids : list (nat * text)) (vis : list nat) (l : list (text * nat)) : er (text * list nat) :=
  match l with
  | [] => EOk ([], vis)
  | (nm, d) :: l' =>
      do* (t1, vis) := pdagStats h ext ids vis d in
      do* (t2, vis) := typeStats h ext ids vis l' in
      EOk (eol ++ line (L "type PDAG: " ++ nm) ++ line (L "----------") ++ t1 ++ t2, vis)
  end.
Definition fullPdagStats (cx : ctx) (ext : bool) (ids : list (nat * text)) (vis : list nat) : er (text * list nat) :=
  do* (t1, vis) := typeStats (c_nodes cx) ext ids vis (c_types cx) in
  do* (t2, vis) := pdagStats (c_nodes cx) ext ids vis (c_root cx) in
  EOk (line (L "User-Defined Types") ++ line (L "==================") ++
       line (L "number types: " ++ show_nat (List.length (c_types cx))) ++
       flat_map (fun x => line (L "type: " ++ fst x)) (c_types cx) ++ t1 ++
       eol ++ line (L "Main PDAG") ++ line (L "=========") ++ t2, vis).
(** the DOT graphs of a context: lognormalizer.c 274-282, pdag.c 1198-1202 *)
Definition comps (cx : ctx) : list nat := map snd (c_types cx) ++ [c_root cx].
Definition dotGraph (addr : nat -> text) (cx : ctx) (vis : list nat) : er (text * list nat) :=
  genDot (c_nodes cx) addr (comps cx) vis (c_root cx).
Definition fullStatsDOT (addr : nat -> text) (cx : ctx) (vis : list nat) : er (text * list nat) :=
  statsDot (c_nodes cx) addr (comps cx) vis (c_root cx).
