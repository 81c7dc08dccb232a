(** * SynSpec: the syntax of rules.

    What text a rule may consist of and what it stands for; independent of the functions that
    read it. The oracles of the environment are used: [json_tok] (libfastjson's tokener) and
    [unescape] (libestr). *)
From Verif Require Import Base.

(** ** Literal text: a percent sign is written twice. *)
Inductive spelled : text -> text -> Prop :=
| sp_nil : spelled [] []
| sp_char : forall c w t, c <> "%"%char -> spelled w t -> spelled (c :: w) (c :: t)
| sp_pct : forall w t, spelled w t -> spelled ("%"%char :: "%"%char :: w) ("%"%char :: t).

(** ** Field descriptions *)
Definition blank (t : text) : Prop := Forall (fun c => isspace c = true) t.
Definition no_blank_end (t : text) : Prop := forall s c, t = s ++ [c] -> isspace c = false.
Definition free_of (cs : text) (t : text) : Prop := forall c, In c t -> ~ In c cs.

(** The members of a JSON object, given behind the type, are added to the description; one
    that is there already is replaced. *)
Definition entry (l : fields) (k : text) : option json :=
  option_map snd (find (fun kv => text_eqb k (fst kv)) l).
Fixpoint put (l : fields) (k : text) (v : json) : fields :=
  match l with
  | [] => [(k, v)]
  | (k', v') :: l' => if text_eqb k k' then (k', v) :: l' else (k', v') :: put l' k v
  end.
Fixpoint put_all (l : fields) (ms : fields) : fields :=
  match ms with [] => l | (k, v) :: ms' => put_all (put l k v) ms' end.

Definition base (name typ : text) : fields :=
  [(L "name", JStr (cstr name)); (L "type", JStr (filter (fun c => negb (ceq c NUL)) typ))].
(** The extra data [x] as written; NUL bytes (possible by an escape sequence) become blanks. *)
Definition extra (e : env) (x : text) : text := map (fun c => if ceq c NUL then " "%char else c) (unescape e x).
Definition with_extra (e : env) (l : fields) (x : text) : fields := put l (L "extradata") (JStr (extra e x)).

(** What follows the type, up to the end of the description: nothing, extra data behind a
    separator, JSON parameters, or both. [tail w rest j x]: of the text [w], [rest] is left;
    [j] are the parameters, [x] the extra data. *)
Inductive data_tail : text -> text -> option text -> Prop :=
| dt_none : forall rest, data_tail ("%"%char :: rest) rest None
| dt_extra : forall c x rest, c <> "%"%char -> free_of (L "%") x -> data_tail (c :: x ++ "%"%char :: rest) rest (Some x)
| dt_open : forall c x, c <> "%"%char -> free_of (L "%") x -> data_tail (c :: x) [] (Some x).
Inductive param_tail (e : env) : text -> text -> option json -> option text -> Prop :=
| pt_plain : forall w rest x, (forall w', w <> "{"%char :: w') -> data_tail w rest x -> param_tail e w rest None x
| pt_json : forall p w rest j x, (exists w', p ++ w = "{"%char :: w') -> json_tok e (p ++ w) = Some (j, List.length p) ->
    data_tail w rest x -> param_tail e (p ++ w) rest (Some j) x
| pt_broken : forall p w rest x, (exists w', p ++ w = "{"%char :: w') -> json_tok e (p ++ w) = None -> json_erroff e (p ++ w) = List.length p ->
    data_tail w rest x -> param_tail e (p ++ w) rest None x.

(** A description: a JSON value, or name, type and what follows. [described e u rest conf]:
    behind the opening percent sign is [u]; the description takes it up to [rest]. *)
Inductive described (e : env) : text -> text -> json -> Prop :=
| de_json : forall sp t rest conf, blank sp -> (exists t', t = "{"%char :: t' \/ t = "["%char :: t') ->
    json_tok e (t ++ "%"%char :: rest) = Some (conf, List.length t) -> conf <> JNull ->
    described e (sp ++ t ++ "%"%char :: rest) rest conf
| de_field : forall sp name typ sp' w rest j x, blank sp ->
    (exists c name', name = c :: name' /\ isspace c = false /\ c <> "{"%char /\ c <> "["%char) -> free_of (L ":") name ->
    (N.of_nat (List.length name) < 1023)%N ->
    free_of (L ":{%") (typ ++ sp') -> blank sp' -> no_blank_end typ ->
    param_tail e w rest j x -> (exists c w', w = c :: w' /\ In c (L ":{%")) ->
    described e (sp ++ name ++ ":"%char :: typ ++ sp' ++ w) rest
      (JObj (put_all (match x with Some x => with_extra e (base name typ) x | None => base name typ end)
                     (match j with Some (JObj ms) => ms | _ => [] end))).

(** ** Rules: literal text and field descriptions *)
Definition one_literal (c : ascii) : json := JObj [(L "type", JStr (L "literal")); (L "text", JStr [c])].
Definition literal_fields (e : env) (l : text) : list json := map one_literal (filter (fun c => negb (ceq c NUL)) (unescape e l)).
Inductive rule_text (e : env) : text -> list json -> Prop :=
| rt_empty : rule_text e [] []
| rt_last : forall w l, w <> [] -> spelled w l -> rule_text e w (literal_fields e l)
| rt_pct : forall w l, spelled w l -> rule_text e (w ++ ["%"%char]) (literal_fields e l)
| rt_field : forall w l u rest conf cs, spelled w l -> (exists c u', u = c :: u' /\ c <> "%"%char) ->
    described e u rest conf -> rule_text e rest cs ->
    rule_text e (w ++ "%"%char :: u) (literal_fields e l ++ conf :: cs).
