(** * EngineSpec2: matches in rulebases with user-defined types and repeat.

    Like EngineSpec.v, for every kind of field. The code does not remember where the match
    of a user-defined type ended; it goes on at the furthest position any alternative got
    to. That position ([to] below) is therefore only known to be at or behind the end of the
    match of the type. *)
From Verif Require Import Base Parsers Engine EngineSpec.

Section Spec2.
Variable e : env.
Variable cx : ctx.
Variable msg : text.

(** a match of one or more steps that ends at [last] goes on at [to] *)
Definition goes_on (w : list step) (last to : nat) : Prop := w = [] \/ last <= to.

(** the value of one repetition: the object of its fields, or the (last) member "." of it *)
Definition item_value (o : fields) : json :=
  match find (fun kv => if list_eq_dec ascii_dec (fst kv) (L ".") then true else false) (rev o) with
  | Some (_, v) => v
  | None => JObj o
  end.

Inductive gaccepts : prs -> nat -> nat -> json -> Prop :=
| ga_simple : forall p from to v, accepts e msg p from to v -> gaccepts p from to v
| ga_custom : forall p ti nm tn from w en last to,
    p_kind p = KCustom ti -> nth_error (c_types cx) ti = Some (nm, tn) ->
    gwalk true tn from w en last -> goes_on w last to ->
    gaccepts p from to (JObj (fields_of [] w))
| ga_repeat : forall p pn wn permit from to vs,
    p_kind p = KRepeat pn wn permit -> gitems pn wn permit from vs to -> vs <> [] ->
    gaccepts p from to (if named p then JArr vs else JNull)
| ga_repeat_none : forall p pn wn from,
    p_kind p = KRepeat pn wn true -> gaccepts p from from JNull
(** [gwalk partial nd offs w en last]: as [walk]; [last] is where the last step ended *)
with gwalk : bool -> nat -> nat -> list step -> nat -> nat -> Prop :=
| gwalk_end : forall partial nd n offs, node_at cx nd n -> n_term n = true ->
    (offs = List.length msg \/ partial = true) -> gwalk partial nd offs [] nd offs
| gwalk_step : forall partial nd n offs i p to v w en last,
    node_at cx nd n -> nth_error (n_parsers n) i = Some p -> gaccepts p offs to v ->
    gwalk partial (p_child p) to w en last ->
    gwalk partial nd offs ({| st_idx := i; st_prs := p; st_from := offs; st_to := to; st_val := v |} :: w) en last
(** the repetitions of a repeat field with the separator matches in between *)
with gitems : nat -> nat -> bool -> nat -> list json -> nat -> Prop :=
| gi_last : forall pn wn permit from w en last to,
    gwalk true pn from w en last -> goes_on w last to ->
    gitems pn wn permit from [item_value (fields_of [] w)] to
| gi_more : forall pn wn permit from w en last to1 w2 en2 last2 to2 vs to,
    gwalk true pn from w en last -> goes_on w last to1 ->
    gwalk true wn to1 w2 en2 last2 -> goes_on w2 last2 to2 ->
    gitems pn wn permit to2 vs to ->
    gitems pn wn permit from (item_value (fields_of [] w) :: vs) to
(** with option.permitMismatchInParser, a separator without a repetition is given back *)
| gi_back : forall pn wn from w en last to w2 en2 last2,
    gwalk true pn from w en last -> goes_on w last to ->
    gwalk true wn to w2 en2 last2 ->
    gitems pn wn true from [item_value (fields_of [] w)] to.
(** Some beginning of a match, of one or more fields of any type, gets to position [pos]. *)
Inductive greaches : nat -> nat -> nat -> Prop :=
| greach_one : forall nd n offs i p to v,
    node_at cx nd n -> nth_error (n_parsers n) i = Some p -> gaccepts p offs to v -> greaches nd offs to
| greach_more : forall nd n offs i p to v pos,
    node_at cx nd n -> nth_error (n_parsers n) i = Some p -> gaccepts p offs to v ->
    greaches (p_child p) to pos -> greaches nd offs pos.
End Spec2.
