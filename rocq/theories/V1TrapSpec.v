(** * V1TrapSpec: what in a rulebase without "version=2" makes loading it misbehave (a
      specification). *)
From Verif Require Import Base V1 LineSpec AnnotSpec.

Definition spaces (t : text) : Prop := Forall (fun c => isspace c = true) t.

(** ** Rules *)

(** Literal text: every '%' is written twice. *)
Inductive literal_text : text -> Prop :=
| li_end : literal_text []
| li_char : forall c l, c <> "%"%char -> literal_text l -> literal_text (c :: l)
| li_percent : forall l, literal_text l -> literal_text ("%"%char :: "%"%char :: l).

(** the name of a field, behind the opening '%' *)
Definition field_name (n : text) : Prop := n <> [] /\ ~ In ":"%char n /\ isspace (hd NUL n) = false.

(** A whole field behind the opening '%', with the closing one: blanks, name, ':', a known
    type, blanks, perhaps ':' and extra data. *)
Inductive whole_field : text -> Prop :=
| wf_plain : forall b1 n ty kd b2, spaces b1 -> field_name n -> In (ty, kd) vtypes -> spaces b2 ->
    whole_field (b1 ++ n ++ ":"%char :: L ty ++ b2 ++ ["%"%char])
| wf_extra : forall b1 n ty kd b2 x, spaces b1 -> field_name n -> In (ty, kd) vtypes -> spaces b2 -> ~ In "%"%char x ->
    whole_field (b1 ++ n ++ ":"%char :: L ty ++ b2 ++ ":"%char :: x ++ ["%"%char]).

(** [opens rule u]: in the rule a field is opened, behind literals and whole fields, and [u] is
    what follows its '%'. *)
Inductive opens : text -> text -> Prop :=
| op_here : forall l c u, literal_text l -> c <> "%"%char -> opens (l ++ "%"%char :: c :: u) (c :: u)
| op_behind : forall l f r u, literal_text l -> whole_field f -> hd NUL f <> "%"%char -> opens r u -> opens (l ++ "%"%char :: f ++ r) u.

(** The rule ends inside of the name of a field. *)
Definition ends_in_name (u : text) : Prop := exists b n, u = b ++ n /\ spaces b /\ field_name n.

(** ** Tags *)

(** An empty tag is followed by a comma. *)
Definition empty_tag (a : text) : Prop := exists x y, a = x ++ ","%char :: y /\ (x = [] \/ exists z, x = z ++ [","%char]).

(** ** Annotations *)

(** whole additions: (blanks) + name = (blanks) "value" *)
Inductive additions : text -> Prop :=
| ad_end : additions []
| ad_one : forall b f b' v u, spaces b -> Forall name_char f -> spaces b' -> ~ In """"%char v -> additions u ->
    additions (b ++ "+"%char :: f ++ "="%char :: b' ++ """"%char :: v ++ """"%char :: u).

(** ** Lines *)

(** a line with this keyword and this value *)
Definition line_says (l : text) (k : string) (u : text) : Prop := l = L k ++ "="%char :: u \/ (l = L k /\ u = []).

(** The line [l] misbehaves, with the prefix [p] in force. *)
Inductive bad_line (p : option text) (l : text) : ub -> Prop :=
(* extendprefix where there is no prefix *)
| bl_extend : forall u, p = None -> line_says l "extendprefix" u -> bad_line p l NullDeref
(* an empty tag before a comma *)
| bl_tag : forall a y, line_says l "rule" (a ++ y) -> ~ In ":"%char a -> empty_tag a -> bad_line p l NullDeref
(* a rule that ends inside of the name of a field *)
| bl_name : forall a s u, line_says l "rule" (a ++ ":"%char :: s) -> ~ In ":"%char a -> ~ empty_tag a -> s <> [] ->
    opens (match p with Some p => p | None => [] end ++ s) u -> ends_in_name u -> bad_line p l UninitRead
(* blanks at the end of an annotation: the loop over the additions does not come to an end *)
| bl_annotate : forall tag b u s, line_says l "annotate" (tag ++ b ++ ":"%char :: u ++ s) -> name tag -> spaces b -> additions u ->
    spaces s -> s <> [] -> bad_line p l OutOfFuel.

(** The prefix behind a line. *)
Inductive prefix_behind (p : option text) (l : text) : option text -> Prop :=
| pb_set : forall u, line_says l "prefix" u -> prefix_behind p l (Some u)
| pb_extend : forall q u, p = Some q -> line_says l "extendprefix" u -> prefix_behind p l (Some (q ++ u))
| pb_other : (forall u, ~ line_says l "prefix" u) -> (forall u, ~ line_says l "extendprefix" u) -> prefix_behind p l p.

(** The first bad line of a rulebase. *)
Inductive goes_wrong : option text -> list (text * N) -> ub -> Prop :=
| gw_here : forall p l n ls u, bad_line p l u -> goes_wrong p ((l, n) :: ls) u
| gw_later : forall p l n ls p' u, (forall x, ~ bad_line p l x) -> prefix_behind p l p' -> goes_wrong p' ls u -> goes_wrong p ((l, n) :: ls) u.

(** ** Any text *)

(** A line: it begins at the beginning of the text, behind a line feed or behind a line that is
    too long, ends where a line ends, is no comment, and the line feeds inside of fields are
    taken out. *)
Definition begins_line (a : text) : Prop := a = [] \/ (exists a', a = a' ++ [LF]) \/ (10 * 1024 <= N.of_nat (List.length a))%N.
Definition ends_line (b : text) : Prop := b = [] \/ (exists b', b = LF :: b').
Definition v1_line_of (t line : text) : Prop :=
  exists a w b, t = a ++ w ++ b /\ begins_line a /\ ends_line b /\ line = filter (fun c => negb (ceq c LF)) w /\
    (exists c w', w = c :: w' /\ c <> "#"%char /\ c <> LF) /\ (forall w1 w2, w = w1 ++ LF :: w2 -> Nat.odd (count_occ ascii_dec w1 "%"%char) = true).

(** the prefixes that lines of [t] can bring about *)
Inductive prefix_from (t : text) (p0 : option text) : option text -> Prop :=
| pf_start : prefix_from t p0 p0
| pf_line : forall p l p', prefix_from t p0 p -> v1_line_of t l -> prefix_behind p l p' -> prefix_from t p0 p'.
