(** * OneSpec: what the fields of one rule mean, with repeat and user-defined types.

    The documented meaning: the fields of a rule take the message one after the other; a
    field of a user-defined type takes what the rule of the type takes; repeat takes what its
    parser takes, again and again as long as the while part matches in between. Uses the
    result of a single field parser ([run_motif]) and [store], [item_value] (EngineSpec.v,
    EngineSpec2.v: how values are put into objects); no graphs, nothing of the normalizer. *)
From Verif Require Import Base Parsers Engine Pdag Samp SafetySpec EngineSpec EngineWf EngineSpec2 RuleSpec LineSpec LoadSpec.

(** What a field runs. *)
Inductive rfield : Type :=
| RPlain (m : motif)                      (* a field of a built-in type *)
| RType (T : text)                        (* a field of the user-defined type [T] *)
| RRepeat (parser while : list (rfield * option text)) (permit : bool).
(** With the name its value is stored under. *)
Definition rfields : Type := list (rfield * option text).

(** The object with the values of a match; the field matched last is stored first. *)
Definition stored (o : fields) (vs : list (option text * json)) : fields :=
  fold_right (fun nv o => store (fst nv) (snd nv) o) o vs.
Definition has_name (nm : option text) : bool := match nm with Some _ => true | None => false end.

Section Meaning.
Variable e : env.
(** the rule of each user-defined type *)
Variable types : list (text * rfields).
Variable msg : text.

(** [field_at f named from r]: tried at position [from] of the message the field gives [r]:
    it takes the message up to a position and has a value, or ([None]) it does not match. *)
Inductive field_at : rfield -> bool -> nat -> option (nat * json) -> Prop :=
| fa_plain : forall m named from n v,
    run_motif e m named from (skipn from msg) = Ok (n, v) -> field_at (RPlain m) named from (Some (from + n, v))
| fa_plain_no : forall m named from k,
    run_motif e m named from (skipn from msg) = Bad k -> field_at (RPlain m) named from None
| fa_type : forall T fs named from to vs, In (T, fs) types -> fields_at fs from (Some (to, vs)) ->
    field_at (RType T) named from (Some (to, JObj (stored [] vs)))
| fa_type_no : forall T fs named from, In (T, fs) types -> fields_at fs from None -> field_at (RType T) named from None
| fa_repeat : forall ps ws permit from to l, items_at ps ws permit from from (Some (to, l)) -> l <> [] ->
    field_at (RRepeat ps ws permit) true from (Some (to, JArr l))
| fa_repeat_null : forall ps ws permit (named : bool) from to l, items_at ps ws permit from from (Some (to, l)) ->
    (if named then l = [] else True) -> field_at (RRepeat ps ws permit) named from (Some (to, JNull))
| fa_repeat_no : forall ps ws permit named from, items_at ps ws permit from from None -> field_at (RRepeat ps ws permit) named from None
(** the fields of a rule, one after the other; the values with their names *)
with fields_at : rfields -> nat -> option (nat * list (option text * json)) -> Prop :=
| fs_nil : forall from, fields_at [] from (Some (from, []))
| fs_cons : forall f nm fs from mid v to vs, field_at f (has_name nm) from (Some (mid, v)) ->
    fields_at fs mid (Some (to, vs)) -> fields_at ((f, nm) :: fs) from (Some (to, (nm, v) :: vs))
| fs_first_no : forall f nm fs from, field_at f (has_name nm) from None -> fields_at ((f, nm) :: fs) from None
| fs_later_no : forall f nm fs from mid v, field_at f (has_name nm) from (Some (mid, v)) ->
    fields_at fs mid None -> fields_at ((f, nm) :: fs) from None
(** [items_at ps ws permit from good r]: the items of a repeat from position [from] on; [good]
    is the position before the last separator, where the repeat ends if the parser does not
    match behind it and this is permitted. *)
with items_at : rfields -> rfields -> bool -> nat -> nat -> option (nat * list json) -> Prop :=
| it_no : forall ps ws from good, fields_at ps from None -> items_at ps ws false from good None
| it_back : forall ps ws from good, fields_at ps from None -> items_at ps ws true from good (Some (good, []))
| it_last : forall ps ws permit from good a vs, fields_at ps from (Some (a, vs)) -> fields_at ws a None ->
    items_at ps ws permit from good (Some (a, [item_value (stored [] vs)]))
| it_more : forall ps ws permit from good a vs b us to l, fields_at ps from (Some (a, vs)) -> fields_at ws a (Some (b, us)) ->
    items_at ps ws permit b a (Some (to, l)) -> items_at ps ws permit from good (Some (to, item_value (stored [] vs) :: l))
| it_more_no : forall ps ws permit from good a vs b us, fields_at ps from (Some (a, vs)) -> fields_at ws a (Some (b, us)) ->
    items_at ps ws permit b a None -> items_at ps ws permit from good None.
End Meaning.

(** ** From configurations to fields *)
(** The name of a field: none if there is no name or it is "-". *)
Definition named_as (l : fields) (nm : option text) : Prop :=
  match obj_get l (L "name") with
  | None => nm = None
  | Some (JStr s) => ~ In NUL s /\ nm = (if text_eqb s (L "-") then None else Some s)
  | _ => False
  end.
(** option.permitMismatchInParser; false if not given. *)
Definition permit_key : text := L "option.permitMismatchInParser".
Definition permits (l : fields) (b : bool) : Prop :=
  match obj_get l permit_key with None => b = false | Some (JBool x) => b = x | _ => False end /\
  forall k, In k (map fst l) -> caseeq k permit_key = true -> k = permit_key.

Section Reads.
Variable e : env.
Variable names : list text.           (* the names of the user-defined types so far *)
Definition known : list (text * nat) := map (fun n => (n, 0)) names.
(** [reads conf fs]: the configuration stands for the fields [fs]: an object for one field,
    an array for its fields in order. The fields of built-in and user-defined types are
    those of RuleSpec.v; repeat has members "parser" and "while"; a parser part with several
    fields has none with the name ".". *)
Inductive reads_field : json -> rfield * option text -> Prop :=
| rd_plain : forall conf m nm, flat_field e known conf = Some (KSimple m, nm) -> reads_field conf (RPlain m, nm)
| rd_type : forall conf ti T nm, flat_field e known conf = Some (KCustom ti, nm) -> nth_error names ti = Some T -> reads_field conf (RType T, nm)
| rd_repeat : forall l nm pv wv ps ws permit,
    NoDup (map fst l) -> obj_get l (L "type") = Some (JStr (L "repeat")) -> named_as l nm ->
    obj_get l (L "parser") = Some pv -> reads pv ps -> (2 <= List.length ps -> ~ In (Some (L ".")) (map snd ps)) ->
    obj_get l (L "while") = Some wv -> reads wv ws -> permits l permit ->
    reads_field (JObj l) (RRepeat ps ws permit, nm)
with reads : json -> rfields -> Prop :=
| rd_one : forall conf f, reads_field conf f -> reads conf [f]
| rd_seq : forall c l f fs, reads_field c f -> reads_all l fs -> reads (JArr (c :: l)) (f :: fs)
with reads_all : list json -> rfields -> Prop :=
| ra_nil : reads_all [] []
| ra_cons : forall c l f fs, reads_field c f -> reads_all l fs -> reads_all (c :: l) (f :: fs).
(** the configurations of a rule *)
Inductive reads_rule : list json -> rfields -> Prop :=
| rr_nil : reads_rule [] []
| rr_cons : forall conf fs cs gs, reads conf fs -> reads_rule cs gs -> reads_rule (conf :: cs) (fs ++ gs).
End Reads.

(** ** Rulebases with one rule and one rule for each user-defined type *)
Definition type_name (T : text) : Prop :=
  (exists t, T = "@"%char :: t) /\ ~ In ":"%char T /\ ~ In NUL T /\ (forall c, In c T -> isspace c = false) /\ (N.of_nat (List.length T) < 1024)%N.
Definition type_line (T r : text) : text := L "type=" ++ T ++ ":"%char :: r.
(** [one_rule e types0 ls types tags fs]: the lines [ls] declare types, each with one rule that
    is not empty and uses types declared before, and end with one rule with the tags [tags]
    and the fields [fs]; [types] are all types with their fields. *)
Inductive one_rule (e : env) : list (text * rfields) -> list (text * N) -> list (text * rfields) -> list text -> rfields -> Prop :=
| one_type : forall types0 T r n ls cs gs types tags fs, type_name T -> ~ In T (map fst types0) -> r <> [] ->
    rule_confs e r cs -> reads_rule e (map fst types0) cs gs -> gs <> [] ->
    one_rule e (types0 ++ [(T, gs)]) ls types tags fs -> one_rule e types0 ((type_line T r, n) :: ls) types tags fs
| one_last : forall types0 r n tags cs fs, Forall good_tag tags -> r <> [] -> rule_confs e r cs -> reads_rule e (map fst types0) cs fs ->
    one_rule e types0 [(rule_line tags r, n)] types0 tags fs.

(** ** The reports *)
(** A message that matches: the values, then the tags, then (option addOriginalMsg) the message. *)
Definition report (o : opts) (tags : list text) (msg : text) (x : fields) : fields :=
  let x := match tags with [] => x | _ => set_member x (L "event.tags") (JArr (map JStr tags)) end in
  if opt_orig o then set_member x (L "originalmsg") (JStr msg) else x.
(** A message that does not: the message and what is left of it from [k] on. *)
Definition failure_report (msg : text) (k : nat) (x : fields) : fields :=
  set_member (set_member x (L "originalmsg") (JStr msg)) (L "unparsed-data") (JStr (skipn k msg)).

(** ** Rules that always have an outcome *)
Section Sane.
Variable types : list (text * rfields).
(** the field takes at least one byte whenever it matches *)
Inductive eats_field : rfield -> Prop :=
| eat_plain : forall m, consuming m = true -> eats_field (RPlain m)
| eat_type : forall T fs, In (T, fs) types -> eats fs -> eats_field (RType T)
| eat_repeat : forall ps ws, eats ps -> eats_field (RRepeat ps ws false)
with eats : rfields -> Prop :=
| eat_here : forall f nm fs, eats_field f -> eats ((f, nm) :: fs)
| eat_later : forall f fs, eats fs -> eats (f :: fs).
(** Every field of a built-in type has its parameters (an op-quoted-string has a name), none is
    cee-syslog; the while part of a repeat takes something and has no named field. *)
Inductive sane_field : rfield -> bool -> Prop :=
| sn_plain : forall m named, m_ok m named -> m <> MCee -> sane_field (RPlain m) named
| sn_type : forall T named, sane_field (RType T) named
| sn_repeat : forall ps ws permit named, sane ps -> sane ws -> eats ws -> (forall f, In f ws -> snd f = None) ->
    sane_field (RRepeat ps ws permit) named
with sane : rfields -> Prop :=
| sn_nil : sane []
| sn_cons : forall f nm fs, sane_field f (has_name nm) -> sane fs -> sane ((f, nm) :: fs).
Definition all_sane (fs : rfields) : Prop := sane fs /\ forall T gs, In (T, gs) types -> sane gs.
End Sane.

(** The context answers every message without NUL byte the way the fields [fs] (with the types
    [types] and the tags [tags]) take it from its beginning to its end. *)
Definition answers (e : env) (o : opts) (cx : ctx) (types : list (text * rfields)) (tags : list text) (fs : rfields) : Prop :=
  forall msg nf js0 ok out cx', ~ In NUL msg -> normalize nf e cx msg js0 = EOk (ok, out, cx') ->
  (ok = true <-> exists vs, fields_at e types msg fs 0 (Some (List.length msg, vs))) /\
  (forall vs, fields_at e types msg fs 0 (Some (List.length msg, vs)) -> opt_rule o = false -> opt_loc o = false -> out = report o tags msg (stored js0 vs)) /\
  (ok = false -> exists k, k <= List.length msg /\ out = failure_report msg k js0).

Scheme field_at_mut := Minimality for field_at Sort Prop
with fields_at_mut := Minimality for fields_at Sort Prop
with items_at_mut := Minimality for items_at Sort Prop.
