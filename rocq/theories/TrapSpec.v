(** * TrapSpec: what in a rulebase can make loading it misbehave (a specification). *)
From Verif Require Import Base Parsers Engine Pdag Samp GraphSpec.

(** [y] is a value inside of [x] *)
Inductive within : json -> json -> Prop :=
| wi_here : forall x, within x x
| wi_elem : forall l x y, In x l -> within x y -> within (JArr l) y
| wi_member : forall l k x y, In (k, x) l -> within x y -> within (JObj l) y.

(** [y] stands where a field is described: the configuration itself, the elements of an array
    of fields, what "parser" and "while" of alternative and repeat describe *)
Inductive position : json -> json -> Prop :=
| po_here : forall x, position x x
| po_elem : forall l x y, In x l -> position x y -> position (JArr l) y
| po_member : forall l k x y, In (k, x) l -> k = L "parser" \/ k = L "while" -> position x y -> position (JObj l) y.

Definition eight_bit (s : text) : Prop := exists c, In c s /\ (128 <= code c)%N.

Section Traps.
Variable e : env.

(** What can be wrong with the configuration of a field. *)
Inductive conf_trap (conf : json) : ub -> Prop :=
(* null anywhere *)
| ct_null : within conf JNull -> conf_trap conf NullDeref
(* a field without a type *)
| ct_untyped : forall l, position conf (JObj l) -> obj_get l (L "type") = None -> conf_trap conf NullDeref
(* an empty array of fields *)
| ct_empty : position conf (JArr []) -> conf_trap conf NullDeref
(* a literal without a text *)
| ct_literal : forall l tv, position conf (JObj l) -> obj_get l (L "type") = Some tv -> jstring e tv = Some (L "literal") ->
    obj_get l (L "text") = None -> conf_trap conf NullDeref
(* matching.permitted of a string field: an element that is no object *)
| ct_permitted : forall l k a x, position conf (JObj l) -> caseeq k (L "matching.permitted") = true -> In (k, JArr a) l -> In x a -> (forall m, x <> JObj m) -> conf_trap conf UninitRead
(* matching.permitted: bytes from 128 on, on platforms with signed char *)
| ct_eight_bit : forall l k v x s, char_signed e = true -> position conf (JObj l) -> caseeq k (L "matching.permitted") = true -> In (k, v) l ->
    within v x -> jstring e x = Some s -> eight_bit s -> conf_trap conf OobWrite.

(** A line: it begins at the beginning of the text or of a line (or behind a line that is too
    long), ends where a line ends (a byte 255 is taken for the end of a string), is no comment,
    and the line feeds inside of fields are taken out. *)
Definition feed : ascii := chr 10.
Definition line_start (a : text) : Prop := a = [] \/ (exists a', a = a' ++ [feed]) \/ (64 * 1024 <= N.of_nat (List.length a))%N.
Definition line_end (b : text) : Prop := b = [] \/ (exists b', b = feed :: b') \/ (exists b', b = chr 255 :: b').
Definition in_field (w : text) : Prop := Nat.odd (count_occ ascii_dec w "%"%char) = true.
Definition a_line_of (t line : text) : Prop :=
  exists a w b, t = a ++ w ++ b /\ line_start a /\ line_end b /\ line = filter (fun c => negb (ceq c feed)) w /\
    (exists c w', w = c :: w' /\ c <> "#"%char /\ c <> feed) /\ (forall w1 w2, w = w1 ++ feed :: w2 -> in_field w1).

(** the file name of an include line *)
Definition names_file (u f : text) : Prop :=
  exists c g r, f = c :: g /\ u = f ++ r /\ c <> NUL /\ Forall (fun x => isspace x = false /\ x <> NUL) g /\
    (r = [] \/ exists x r', r = x :: r' /\ (isspace x = true \/ x = NUL)).

(** The text itself and, without their first line, the files included, directly or not; with
    the depth of inclusion. *)
Inductive source (t0 : text) : nat -> text -> Prop :=
| so_here : source t0 0 t0
| so_file : forall n t u f content, source t0 n t -> a_line_of t (L "include=" ++ u) -> names_file u f -> files e f = Some content ->
    source t0 (S n) (skipn 10 content).
(** The lines of the rulebase *)
Definition a_line (t0 line : text) : Prop := exists n t, source t0 n t /\ a_line_of t line.

Section Lines.
(** the prefix at the beginning; the lines *)
Variables (p0 : option text) (Ln : text -> Prop).

(** a line with this keyword and value *)
Definition says (k : string) (u : text) : Prop := Ln (L k ++ L "=" ++ u) \/ (u = [] /\ Ln (L k)).

(** what the prefix can be *)
Inductive prefix_at : text -> Prop :=
| pa_none : p0 = None -> prefix_at []
| pa_start : forall p, p0 = Some p -> prefix_at p
| pa_set : forall u, says "prefix" u -> prefix_at u
| pa_extend : forall p u, prefix_at p -> says "extendprefix" u -> prefix_at (p ++ u).

(** the texts of rules and types *)
Inductive rule_of : text -> Prop :=
| ro_rule : forall a s p, says "rule" (a ++ L ":" ++ s) -> ~ In ":"%char a -> prefix_at p -> rule_of (p ++ s)
| ro_type : forall a s, says "type" (a ++ L ":" ++ s) -> ~ In ":"%char a -> rule_of s.

(** Literal text: every '%' is written twice. *)
Inductive literal_run : text -> Prop :=
| lr_end : literal_run []
| lr_char : forall c l, c <> "%"%char -> literal_run l -> literal_run (c :: l)
| lr_percent : forall l, literal_run l -> literal_run ("%"%char :: "%"%char :: l).
(** [opens_at r w]: behind literals and complete fields, a field is opened in the rule [r]; from
    its '%' on the rule is [w]. *)
Inductive opens_at : text -> text -> Prop :=
| oa_here : forall l c u, literal_run l -> c <> "%"%char -> opens_at (l ++ "%"%char :: c :: u) ("%"%char :: c :: u)
| oa_behind : forall l c u rest conf w, literal_run l -> c <> "%"%char -> fieldDescr e ("%"%char :: c :: u) = Ok (rest, conf) -> opens_at rest w ->
    opens_at (l ++ "%"%char :: c :: u) w.

(** a '%' followed by nothing but blanks; or, behind name and type, JSON parameters at the very
    end of the rule *)
Definition unfinished (w : text) : Prop :=
  (exists b, w = L "%" ++ b /\ Forall (fun c => isspace c = true) b) \/
  (exists a t js, w = L "%" ++ a ++ L ":" ++ t ++ js /\ ~ In ":"%char a /\ (forall c, In c t -> ~ In c (L ":{%")) /\ (exists js', js = L "{" ++ js') /\
     match json_tok e js with Some (_, k) => List.length js <= k | None => List.length js <= json_erroff e js end).

Inductive load_trap : ub -> Prop :=
| lt_extend : forall u, p0 = None -> says "extendprefix" u -> load_trap NullDeref
| lt_include : forall u, says "include" u -> (u = [] \/ exists u', u = NUL :: u') -> load_trap OobRead
| lt_tag : forall a b, says "rule" (a ++ L "," ++ b) -> ~ In ":"%char a -> (a = [] \/ exists a', a = a' ++ L ",") -> load_trap NullDeref
| lt_unfinished : forall r w, rule_of r -> opens_at r w -> unfinished w -> load_trap UninitRead
| lt_conf : forall r w rest conf u, rule_of r -> opens_at r (L "%" ++ w) -> fieldDescr e (L "%" ++ w) = Ok (rest, conf) -> conf_trap conf u -> load_trap u
(* the loop over the annotations of a line does not come to an end *)
| lt_annotate : forall u c, says "annotate" (u ++ [c]) -> isspace c = true -> load_trap OutOfFuel.
End Lines.

(** Every literal field of the context has its text. *)
Definition texts_there (cx : ctx) : Prop :=
  forall i n p, live (c_nodes cx) i n -> In p (n_parsers n) -> parserName (p_kind p) = L "literal" -> exists a, p_kind p = KSimple (MLiteral a).

(** The recursion of include lines and the lengths of the texts fit into [fuel]. *)
Definition fits (t0 : text) (fuel : nat) : Prop := forall n t, source t0 n t -> n + S (List.length t) <= fuel.
End Traps.
