(** * EngineSpec: what it means for a message to match a rulebase.

    Written over the data types of Engine.v (graph, parser instances) and the result of a
    single field parser only; none of the functions of the normalizer is used. *)
From Verif Require Import Base Parsers Engine.

Section Spec.
Variable e : env.
Variable cx : ctx.
Variable msg : text.

Definition node_at (i : nat) (n : node) : Prop := nth_error (c_nodes cx) i = Some (Some n).

Definition named (p : prs) : bool := match p_name p with Some _ => true | None => false end.

(** The field parser of [p] accepts the piece [from, to) of the message with value [v]. *)
Definition accepts (p : prs) (from to : nat) (v : json) : Prop :=
  exists m n, p_kind p = KSimple m /\ from <= List.length msg /\ to = from + n /\
              run_motif e m (named p) from (skipn from msg) = Ok (n, v).

(** One step of a match: alternative number [st_idx] of the node, its parser, the piece
    taken and the value. *)
Record step := { st_idx : nat; st_prs : prs; st_from : nat; st_to : nat; st_val : json }.

(** [walk partial nd offs w en]: from node [nd] at position [offs], the steps [w] lead to
    the rule end [en]; the steps take consecutive pieces; they take the message up to its
    end unless [partial] (used for user-defined types and repeat). *)
Inductive walk (partial : bool) : nat -> nat -> list step -> nat -> Prop :=
| walk_end : forall nd n offs, node_at nd n -> n_term n = true ->
    (offs = List.length msg \/ partial = true) -> walk partial nd offs [] nd
| walk_step : forall nd n offs i p to v w en,
    node_at nd n -> nth_error (n_parsers n) i = Some p -> accepts p offs to v ->
    walk partial (p_child p) to w en ->
    walk partial nd offs ({| st_idx := i; st_prs := p; st_from := offs; st_to := to; st_val := v |} :: w) en.

(** Some beginning of a match, of one or more steps, gets to position [pos]. *)
Inductive reaches : nat -> nat -> nat -> Prop :=
| reach_one : forall nd n offs i p to v,
    node_at nd n -> nth_error (n_parsers n) i = Some p -> accepts p offs to v -> reaches nd offs to
| reach_more : forall nd n offs i p to v pos,
    node_at nd n -> nth_error (n_parsers n) i = Some p -> accepts p offs to v ->
    reaches (p_child p) to pos -> reaches nd offs pos.

(** Order of preference: at the first difference the smaller alternative wins; going on is
    preferred to stopping. *)
Inductive before : list step -> list step -> Prop :=
| bf_refl : forall w, before w w
| bf_stop : forall a w, before (a :: w) []
| bf_less : forall a w b w', st_idx a < st_idx b -> before (a :: w) (b :: w')
| bf_tail : forall a w b w', st_idx a = st_idx b -> before w w' -> before (a :: w) (b :: w').

(** ** Storing a field (documented name rules) *)
(** set a member: replace or append *)
Fixpoint set_member (o : fields) (k : text) (v : json) : fields :=
  match o with
  | [] => [(k, v)]
  | (k', v') :: o' => if list_eq_dec ascii_dec k k' then (k', v) :: o' else (k', v') :: set_member o' k v
  end.
Definition set_members (o add : fields) : fields := fold_left (fun o kv => set_member o (fst kv) (snd kv)) add o.

Definition store (name : option text) (v : json) (o : fields) : fields :=
  match name with
  | None => o
  | Some nm =>
      if list_eq_dec ascii_dec nm (L ".") then
        match v with JObj add => set_members o add | _ => o ++ [(nm, v)] end
      else match v with
           | JObj [(k, x)] => if list_eq_dec ascii_dec k (L "..") then o ++ [(nm, x)] else o ++ [(nm, v)]
           | _ => o ++ [(nm, v)]
           end
  end.

(** The fields of a match on top of [o0]. The field matched last is stored first. *)
Definition fields_of (o0 : fields) (w : list step) : fields :=
  fold_right (fun st o => store (p_name (st_prs st)) (st_val st) o) o0 w.

(** The rule end that the code reports for a match: the first terminal node on the way at
    which it could have stopped. *)
Definition stops_at (partial : bool) (nd offs : nat) : bool :=
  match nth_error (c_nodes cx) nd with
  | Some (Some n) => (n_term n && (Nat.eqb offs (List.length msg) || partial))%bool
  | _ => false
  end.
Fixpoint reported (partial : bool) (nd offs : nat) (w : list step) (en : nat) : nat :=
  if stops_at partial nd offs then nd
  else match w with
       | [] => en
       | st :: w' => reported partial (p_child (st_prs st)) (st_to st) w' en
       end.

(** Reversed rule text of a match. *)
Definition mockup_rev (w : list step) : text :=
  flat_map (fun st => mockup_of (st_prs st)) (rev w).

(** ** Plain graphs: only simple field types can be reached. *)
Inductive reach_node : nat -> nat -> Prop :=
| rn_refl : forall a, reach_node a a
| rn_step : forall a n p b, node_at a n -> In p (n_parsers n) -> reach_node (p_child p) b -> reach_node a b.

Definition simple (p : prs) : Prop := exists m, p_kind p = KSimple m.
Definition plain (nd : nat) : Prop :=
  forall b n, reach_node nd b -> node_at b n -> Forall simple (n_parsers n).

End Spec.
