(** * LineSpec: how a rulebase text is made up of lines.

    Written from the documentation of the rulebase format, without the reader of the model
    (only [processSamp], the processing of one line, is used in [process]). *)
From Verif Require Import Base Parsers Engine Pdag Samp.

Definition LF : ascii := chr 10.
Definition count (c : ascii) (t : text) : nat := List.length (filter (ceq c) t).
(** Behind [t] a field is open: an odd number of percent signs. *)
Definition in_field (t : text) : bool := Nat.odd (count "%" t).
(** A line may be written on several lines, broken inside fields. *)
Definition one_line (w : text) : text := filter (fun c => negb (ceq c LF)) w.

(** [w] is the writing of one line (without the line feed at the end): it is not empty, no
    comment, line feeds in it stand inside fields, and it has less than 64K bytes. *)
Record entry (w : text) : Prop := {
  en_start : exists c t, w = c :: t /\ c <> LF /\ c <> "#"%char;
  en_inner : forall a b, w = a ++ LF :: b -> in_field a = true;
  en_size : (N.of_nat (List.length (one_line w)) < 64 * 1024)%N;
}.

(** Line numbers are unsigned int. *)
Definition lineno (n : N) (k : nat) : N := ((n + N.of_nat k) mod 2 ^ 32)%N.

(** In a file, a line that is continued after a line feed is given up when a new rule seems
    to start there; [goes_on u]: [u] does not look like the start of a rule. *)
Inductive goes_on : text -> Prop :=
| go_end : goes_on []
| go_blank : forall u, goes_on u -> goes_on (LF :: u)
| go_comment : forall x u, ~ In LF x -> goes_on u -> goes_on ("#"%char :: x ++ LF :: u)
| go_text : forall c u, c <> LF -> c <> "#"%char -> 5 <= List.length (c :: u) -> firstn 5 (c :: u) <> L "rule=" -> goes_on (c :: u).

(** [rulebase isfile t n ls]: the text [t] (from line number [n] on) consists of the lines
    [ls], each with its line number (the number of its last line feed). *)
Inductive rulebase (isfile : bool) : text -> N -> list (text * N) -> Prop :=
| rb_end : forall n, rulebase isfile [] n []
| rb_blank : forall t n ls, rulebase isfile t (lineno n 1) ls -> rulebase isfile (LF :: t) n ls
| rb_comment : forall x t n ls, ~ In LF x -> rulebase isfile t (lineno n 1) ls -> rulebase isfile ("#"%char :: x ++ LF :: t) n ls
| rb_comment_end : forall x n, ~ In LF x -> rulebase isfile ("#"%char :: x) n []
| rb_line : forall w t n ls, entry w -> in_field w = false ->
    (isfile = true -> forall a b, w = a ++ LF :: b -> goes_on (b ++ LF :: t)) ->
    rulebase isfile t (lineno n (count LF w + 1)) ls ->
    rulebase isfile (w ++ LF :: t) n ((one_line w, lineno n (count LF w + 1)) :: ls)
| rb_last : forall w n, entry w -> (isfile = true -> forall a b, w = a ++ LF :: b -> goes_on b) ->
    rulebase isfile w n [(one_line w, lineno n (count LF w))].

(** The lines are processed one after the other; an error stops. *)
Fixpoint process (e : env) (load : ctx -> text -> er (ctx * bool)) (afuel : nat) (cx : ctx) (ls : list (text * N)) : er (ctx * bool) :=
  match ls with
  | [] => EOk (cx, true)
  | (l, n) :: ls' =>
      do* (cx, ok) := processSamp e load afuel (set_pos cx (c_file cx) n) l in
      if ok then process e load afuel cx ls' else EOk (cx, false)
  end.

(** No byte of the text is taken for the end of the input. *)
Definition no_eof (e : env) (isfile : bool) (t : text) : Prop := forall c, In c t -> is_eof_char e isfile c = false.

(** The same context but for the line number of the reader. *)
Definition eqpos (a b : ctx) : Prop := a = set_pos b (c_file b) (c_line a).
(** The same result of loading, the same context but for the line number of the reader. *)
Definition same_result (x y : er (ctx * bool)) : Prop :=
  match x, y with
  | EOk (c, ok), EOk (c', ok') => eqpos c c' /\ ok = ok'
  | EUb u, EUb u' => u = u'
  | _, _ => False
  end.
