(** * StatSpec: what a picture of a rulebase must show, and a reader for DOT files. Knows nothing
    of the functions in Stat.v. *)
From Coq Require Import Permutation.
From Coq Require DecimalString.
From Verif Require Import Base Parsers Engine Pdag GraphSpec RuleSpec.

(** ** What belongs to a picture *)
Inductive item : Type := INode (i : nat) (n : node) | IEdge (i : nat) (p : prs).
Section Items.
Variable h : list (option node).
(** the nodes to which fields are followed *)
Variable keep : nat -> bool.
Inductive kpath : nat -> list prs -> nat -> Prop :=
| kp_nil : forall i, kpath i [] i
| kp_cons : forall i n p ps j, live h i n -> In p (n_parsers n) -> keep (p_child p) = true -> kpath (p_child p) ps j -> kpath i (p :: ps) j.
Definition below (r i : nat) : Prop := exists ps, kpath r ps i.
(** a node and its fields *)
Definition items_of (i : nat) : list item :=
  match nth_error h i with
  | Some (Some n) => INode i n :: map (IEdge i) (filter (fun p => keep (p_child p)) (n_parsers n))
  | _ => []
  end.
(** [order] lists the nodes below [r] but not in [old], each once. *)
Definition new_below (r : nat) (old order : list nat) : Prop :=
  NoDup order /\ forall i, In i order <-> below r i /\ ~ In i old.
End Items.
Definition everything : nat -> bool := fun _ => true.
(** the nodes the normalizer has been to *)
Definition used (h : list (option node)) (i : nat) : bool :=
  match nth_error h i with Some (Some n) => negb (N.eqb (n_called n) 0) | _ => false end.

(** No node can be reached in two ways. *)
Definition tree (h : list (option node)) (r : nat) : Prop :=
  (forall ps ps' i, path h r ps i -> path h r ps' i -> ps = ps') /\
  (forall ps i n, path h r ps i -> live h i n -> NoDup (map p_child (n_parsers n))).
(** [k] nodes stand on the longest way from [r]. *)
Definition longest (h : list (option node)) (r k : nat) : Prop :=
  (exists ps i, path h r ps i /\ k = S (List.length ps)) /\ forall ps i, path h r ps i -> S (List.length ps) <= k.
(** Every field has its data (else its constructor has failed: C81). *)
Definition data_complete (h : list (option node)) : Prop :=
  forall i n p ty, live h i n -> In p (n_parsers n) -> p_kind p <> KSimple (MNoData ty).

(** ** A reader for DOT files (directed graphs, statements with attributes) *)
Inductive token : Type := TId (t : text) | TStr (t : text) | TArrow | TEq | TOpen | TClose | TBegin | TEnd.
Inductive lstate : Type := LStart | LId (acc : text) | LStr (acc : text) | LEsc (acc : text) | LDash.
Definition id_char (c : ascii) : bool := (isalnum c || ceq c "_")%bool.
(** one byte outside of words and strings *)
Definition lex_start (c : ascii) : option (list token * lstate) :=
  if isspace c then Some ([], LStart)
  else if id_char c then Some ([], LId [c])
  else if ceq c """" then Some ([], LStr [])
  else if ceq c "-" then Some ([], LDash)
  else if ceq c "=" then Some ([TEq], LStart)
  else if ceq c "[" then Some ([TOpen], LStart)
  else if ceq c "]" then Some ([TClose], LStart)
  else if ceq c "{" then Some ([TBegin], LStart)
  else if ceq c "}" then Some ([TEnd], LStart)
  else None.
Fixpoint lex (s : lstate) (t : text) : option (list token) :=
  match t with
  | [] => match s with LStart => Some [] | LId a => Some [TId (rev a)] | _ => None end
  | c :: t' =>
      match s with
      | LStart => match lex_start c with Some (l, s') => option_map (app l) (lex s' t') | None => None end
      | LId a => if id_char c then lex (LId (c :: a)) t'
                 else match lex_start c with Some (l, s') => option_map (app (TId (rev a) :: l)) (lex s' t') | None => None end
      | LStr a => if ceq c """" then option_map (cons (TStr (rev a))) (lex LStart t')
                  else if ceq c "\" then lex (LEsc a) t' else lex (LStr (c :: a)) t'
      | LEsc a => lex (LStr (c :: a)) t'
      | LDash => if ceq c ">" then option_map (cons TArrow) (lex LStart t') else None
      end
  end.
(** A statement: node, other end if it is an edge, attributes. *)
Definition stmt : Type := (text * option text * list (text * text))%type.
Inductive pstate : Type :=
| PIdle | PHead (a : text) | PArrow (a : text) | PHead2 (a b : text)
| PAttr (a : text) (b : option text) (l : list (text * text))
| PKey (a : text) (b : option text) (l : list (text * text)) (k : text)
| PEq (a : text) (b : option text) (l : list (text * text)) (k : text).
Fixpoint parse (s : pstate) (ts : list token) : option (list stmt) :=
  match s, ts with
  | PIdle, [TEnd] => Some []
  | PIdle, TId a :: ts' => parse (PHead a) ts'
  | PHead a, TArrow :: ts' => parse (PArrow a) ts'
  | PHead a, TOpen :: ts' => parse (PAttr a None []) ts'
  | PArrow a, TId b :: ts' => parse (PHead2 a b) ts'
  | PHead2 a b, TOpen :: ts' => parse (PAttr a (Some b) []) ts'
  | PAttr a b l, TId k :: ts' => parse (PKey a b l k) ts'
  | PAttr a b l, TClose :: ts' => option_map (cons (a, b, rev l)) (parse PIdle ts')
  | PKey a b l k, TEq :: ts' => parse (PEq a b l k) ts'
  | PEq a b l k, TStr v :: ts' => parse (PAttr a b ((k, v) :: l)) ts'
  | _, _ => None
  end.
Definition read_dot (t : text) : option (list stmt) :=
  match lex LStart t with
  | Some (TId d :: TId nm :: TBegin :: ts) => if text_eqb d (L "digraph") then parse PIdle ts else None
  | _ => None
  end.

(** ** What the pictures say *)
(** decimal numbers *)
Definition decimal (z : Z) : text := L (DecimalString.NilZero.string_of_int (Z.to_int z)).
Section Picture.
(** names of nodes *)
Variable name : nat -> text.
Definition bold (n : node) : list (text * text) := match n_parsers n with [] => [(L "style", L "bold")] | _ => [] end.
Definition no_quotes (t : text) : text := filter (fun c => negb (ceq c "\" || ceq c """")) t.
Definition literal_text (p : prs) : text := match p_kind p with KSimple (MLiteral t) => no_quotes (cstr t) | _ => [] end.
Notation number := decimal.
(** the rulebase: reference counts, types, literals *)
Definition shown (x : item) : stmt :=
  match x with
  | INode i n => (name i, None, (L "label", number (n_refcnt n)) :: bold n)
  | IEdge i p => (name i, Some (name (p_child p)), [(L "label", parserName (p_kind p) ++ L ":" ++ literal_text p); (L "style", L "dotted")])
  end.
(** its use: how often a node was used and failed, literals or types *)
Definition shown_use (x : item) : stmt :=
  match x with
  | INode i n => (name i, None, (L "label", number (Z.of_N (n_called n)) ++ L ":" ++ number (Z.of_N (n_backtracked n))) :: bold n)
  | IEdge i p => (name i, Some (name (p_child p)),
      [(L "label", if text_eqb (parserName (p_kind p)) (L "literal") then literal_text p else parserName (p_kind p)); (L "style", L "dotted")])
  end.
End Picture.

(** ** The report on a graph: [order] are its nodes. *)
Definition nodes_with (h : list (option node)) (f : node -> bool) (order : list nat) : nat :=
  List.length (filter (fun i => match nth_error h i with Some (Some n) => f n | _ => false end) order).
Definition all_fields (h : list (option node)) (order : list nat) : list prs :=
  flat_map (fun i => match nth_error h i with Some (Some n) => n_parsers n | _ => [] end) order.
Definition fields_of (h : list (option node)) (i : nat) : nat :=
  match nth_error h i with Some (Some n) => List.length (n_parsers n) | _ => 0 end.
Definition of_type (ty : text) (p : prs) : bool :=
  match p_kind p with KCustom _ => false | k => text_eqb ty (parserName k) end.
(** the built-in types, in the order of the report *)
Definition builtin_types : list text := map L
  ["literal"; "repeat"; "date-rfc3164"; "date-rfc5424"; "number"; "float"; "hexnumber"; "kernel-timestamp";
   "whitespace"; "ipv4"; "ipv6"; "word"; "alpha"; "rest"; "op-quoted-string"; "quoted-string"; "date-iso";
   "time-24hr"; "time-12hr"; "duration"; "cisco-interface-spec"; "json"; "cee-syslog"; "mac48"; "cef";
   "v2-iptables"; "name-value-list"; "checkpoint-lea"; "string-to"; "char-to"; "char-sep"; "string"]%string.
Definition right_aligned (w : nat) (t : text) : text := repeat " "%char (w - List.length t) ++ t.
Definition num (n : nat) : text := L (DecimalString.NilZero.string_of_uint (Nat.to_uint n)).
Definition TAB : ascii := chr 9.
Definition full_line (t : text) : text := t ++ [chr 10].
Definition report (h : list (option node)) (order : list nat) (longest : nat) : text :=
  full_line (L "nodes.............: " ++ right_aligned 4 (num (List.length order))) ++
  full_line (L "terminal nodes....: " ++ right_aligned 4 (num (nodes_with h n_term order))) ++
  full_line (L "parsers entries...: " ++ right_aligned 4 (num (List.length (all_fields h order)))) ++
  full_line (L "longest path......: " ++ right_aligned 4 (num longest)) ++
  full_line (L "Parser Type Counts:") ++
  flat_map (fun ty => match List.length (filter (of_type ty) (all_fields h order)) with
                      | O => []
                      | k => full_line (TAB :: right_aligned 20 ty ++ L ": " ++ num k)
                      end) builtin_types ++
  full_line (L "Parsers per Node:") ++
  full_line (TAB :: L "max:" ++ TAB :: right_aligned 4 (num (list_max (map (fields_of h) order)))) ++
  flat_map (fun k => match nodes_with h (fun n => Nat.eqb (List.length (n_parsers n)) k) order with
                     | O => []
                     | m => full_line (TAB :: num k ++ L ":" ++ TAB :: right_aligned 4 (num m))
                     end) (seq 0 100).

(** The identifier of a node: what its fields are, one after the other. *)
Definition shown_field (p : prs) : text :=
  match p_kind p, p_name p with
  | KSimple (MLiteral t), None => cstr t
  | KSimple (MLiteral t), Some nm => L "%" ++ nm ++ L ":literal:" ++ cstr t ++ L "%"
  | k, nm => L "%" ++ match nm with Some x => x | None => L "-" end ++ L ":" ++ parserName k ++ L "%"
  end.
Definition shown_path (ps : list prs) : text := flat_map shown_field ps.

(** ** The whole report *)
(** What is said of the components with roots [rs]: the nodes of each that were not [seen]
    before, and the length of a way through them, the longest one if nothing is shared. *)
Inductive counted (h : list (option node)) : list nat -> list nat -> list (list nat * nat) -> Prop :=
| cn_nil : forall seen, counted h [] seen []
| cn_cons : forall r rs seen order k l,
    new_below h everything r seen order ->
    (In r seen -> k = 0) -> (~ In r seen -> exists ps i, path h r ps i /\ k = S (List.length ps)) ->
    (tree h r -> (forall i, below h everything r i -> ~ In i seen) -> longest h r k) ->
    counted h rs (order ++ seen) l ->
    counted h (r :: rs) seen ((order, k) :: l).
Definition full_report (names : list text) (sections : list text) (main : text) : text :=
  full_line (L "User-Defined Types") ++ full_line (L "==================") ++
  full_line (L "number types: " ++ num (List.length names)) ++
  flat_map (fun nm => full_line (L "type: " ++ nm)) names ++
  flat_map (fun x => [chr 10] ++ full_line (L "type PDAG: " ++ fst x) ++ full_line (L "----------") ++ snd x) (combine names sections) ++
  [chr 10] ++ full_line (L "Main PDAG") ++ full_line (L "=========") ++ main.
(** The ways from [r] along nodes that were used to a node that was used, each once. *)
Definition used_ways (h : list (option node)) (r : nat) (l : list (list prs * nat)) : Prop :=
  NoDup l /\ forall ps i, In (ps, i) l <-> kpath h (used h) r ps i /\ used h i = true.
Definition usage_report (h : list (option node)) (l : list (list prs * nat)) : text :=
  full_line (L "Usage Statistics:") ++ full_line (L "-----------------") ++ full_line (L "called, backtracked, rule") ++
  flat_map (fun x => match nth_error h (snd x) with
                     | Some (Some n) => full_line (decimal (Z.of_N (n_called n)) ++ L ", " ++ decimal (Z.of_N (n_backtracked n)) ++ L ", " ++ shown_path (fst x))
                     | _ => []
                     end) l.
(** Nothing is shared: the components are trees that have no node in common. *)
Definition forest (h : list (option node)) (rs : list nat) : Prop :=
  (forall r, In r rs -> tree h r) /\ NoDup rs /\
  (forall r r' i, In r rs -> In r' rs -> below h everything r i -> below h everything r' i -> r = r').
Definition not_below (h : list (option node)) (rs vis : list nat) : Prop :=
  forall i r, In i vis -> In r rs -> ~ below h everything r i.
