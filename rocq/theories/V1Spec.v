(** * V1Spec: rules of a rulebase without "version=2", what it means that a message matches
      one, and what a parse tree contains. *)
From Verif Require Import Base Parsers Engine V1.

(** ** Rules *)

(** A rule is a sequence of literal bytes and fields, together with its tags. *)
Inductive vitem : Type := VC (c : ascii) | VF (f : vfield).
Definition vrule := (list vitem * option json)%type.

Definition lit (s : text) : list vitem := map VC s.

(** ** Rule text *)
Section Text.
Variable e : env.

(** A literal is written with every '%' doubled; [unescape] (libestr) is then applied. *)
Fixpoint doubled (s : text) : text :=
  match s with
  | [] => []
  | c :: s' => if ceq c "%" then c :: c :: doubled s' else c :: doubled s'
  end.

Definition blanks (s : text) : Prop := Forall (fun c => isspace c = true) s.
Definition without (c : ascii) (s : text) : Prop := ~ In c s.

(** What stands behind the opening '%' of a field, up to and including the closing one:
    name:type% or name:type:extra%, with blanks before the name and behind the type. *)
Inductive field_text : text -> vfield -> Prop :=
| ft_plain b1 name ty b2 kd :
    blanks b1 -> blanks b2 ->
    name <> [] -> without ":" name -> isspace (hd NUL name) = false -> hd NUL name <> "%"%char ->
    In (ty, kd) vtypes ->
    field_text (b1 ++ name ++ ":"%char :: L ty ++ b2 ++ ["%"%char])
      {| vf_name := name; vf_kind := kd; vf_data := None; vf_raw := None |}
| ft_extra b1 name ty b2 kd extra :
    blanks b1 -> blanks b2 ->
    name <> [] -> without ":" name -> isspace (hd NUL name) = false -> hd NUL name <> "%"%char ->
    In (ty, kd) vtypes -> without "%" extra ->
    field_text (b1 ++ name ++ ":"%char :: L ty ++ b2 ++ ":"%char :: extra ++ ["%"%char])
      {| vf_name := name; vf_kind := kd; vf_data := Some (unescape e extra); vf_raw := Some extra |}.

(** The text of a rule and its items. Lengths of 65536 bytes and more do not fit the
    counters of the code. *)
Inductive rule_text : text -> list vitem -> Prop :=
| rt_lit s : (N.of_nat (List.length (unescape e s)) < 65536)%N ->
    rule_text (doubled s) (lit (unescape e s))
| rt_field s ft f u its :
    (N.of_nat (List.length (unescape e s)) < 65536)%N ->
    field_text ft f -> rule_text u its ->
    rule_text (doubled s ++ "%"%char :: ft ++ u) (lit (unescape e s) ++ VF f :: its).
End Text.

(** ** Matching *)
(** The pairs that an iptables field finds in a text, in order: name=value, or a name alone,
    divided by blanks. The value goes to the next blank and may contain "=". Blanks at the end
    count as one more name, which is empty. *)
Definition at_blank (u : text) : Prop := u = [] \/ exists c r, u = c :: r /\ isspace c = true.
Inductive ipt_pairs : text -> list (text * json) -> Prop :=
| ip_end : ipt_pairs [] []
| ip_value b k v u kvs : Forall (fun c => isspace c = true) b -> Forall (fun c => isspace c = false /\ c <> "="%char) k ->
    Forall (fun c => isspace c = false) v -> at_blank u -> ipt_pairs u kvs ->
    ipt_pairs (b ++ k ++ "="%char :: v ++ u) ((cstr k, JStr (cstr v)) :: kvs)
| ip_present b k u kvs : Forall (fun c => isspace c = true) b -> Forall (fun c => isspace c = false /\ c <> "="%char) k ->
    b ++ k <> [] -> at_blank u -> (k = [] -> u = []) -> ipt_pairs u kvs ->
    ipt_pairs (b ++ k ++ u) ((cstr k, JStr (L "[*PRESENT*]")) :: kvs).

Section Match.
Variable msg : text.
Variable runf : vfield -> nat -> res (nat * json).

(** [takes lim its o o' vs]: reading the message from position [o], the items [its] lead to
    position [o'] and yield the values [vs]. Fields start before position [lim]. A field of
    type rest takes what remains, which must not be empty, and nothing follows it. A field of
    type iptables takes what remains, which must not be empty; its value here is the object of
    all pairs. *)
Definition field_takes (f : vfield) (o o1 : nat) (v : json) : Prop :=
  if vkind_eqb (vf_kind f) KIptables
  then o < List.length msg /\ o1 = List.length msg /\ exists kvs, v = JObj kvs /\ ipt_pairs (skipn o msg) kvs
  else runf f o = Ok (o1, v).
Inductive takes (lim : nat) : list vitem -> nat -> nat -> list (vfield * json) -> Prop :=
| tk_nil o : takes lim [] o o []
| tk_char c its o o' vs :
    nth_error msg o = Some c -> takes lim its (S o) o' vs -> takes lim (VC c :: its) o o' vs
| tk_field f its o o1 v o' vs :
    vf_kind f <> KRest -> o < lim -> field_takes f o o1 v -> takes lim its o1 o' vs ->
    takes lim (VF f :: its) o o' ((f, v) :: vs)
| tk_rest f o :
    vf_kind f = KRest -> o < List.length msg ->
    takes lim [VF f] o (List.length msg) [(f, JStr (cstr (skipn o msg)))].

(** The whole message matches the items. *)
Definition matches (lim : nat) (its : list vitem) (vs : list (vfield * json)) : Prop :=
  exists o', takes lim its 0 o' vs /\ List.length msg <= o'.

(** Every field starts before the end of the message. *)
Definition matches_inside := matches (List.length msg).
(** Fields may also be tried at the end of the message (and then match nothing). *)
Definition matches_closed := matches (S (List.length msg)).
End Match.

(** The event after the values of a match are stored: the last field of the rule first,
    fields named "-" not at all, a repeated name keeps the value of its first field. The
    pairs of iptables are stored one after the other. *)
Definition store_one (f : vfield) (v : json) (js : fields) : fields :=
  if vkind_eqb (vf_kind f) KIptables
  then match v with JObj kvs => fold_left (fun o m => obj_add o (fst m) (snd m)) kvs js | _ => js end
  else vstore f v js.
Fixpoint store_all (vs : list (vfield * json)) (js : fields) : fields :=
  match vs with
  | [] => js
  | (f, v) :: vs' => store_one f v (store_all vs' js)
  end.

(** ** Trees *)

(** [vpath t its en]: the items [its] lead from the root of [t] to a node with the terminal
    mark and tags [en]. *)
Inductive vpath : vtree -> list vitem -> endinfo -> Prop :=
| vp_end p tm tg fs ls : vpath (VNode p tm tg fs ls) (lit p) (tm, tg)
| vp_field p tm tg fs ls f t its en :
    In (f, t) fs -> vpath t its en -> vpath (VNode p tm tg fs ls) (lit p ++ VF f :: its) en
| vp_lit p tm tg fs ls c t its en :
    In (c, t) ls -> vpath t its en -> vpath (VNode p tm tg fs ls) (lit p ++ VC c :: its) en.

Definition has_rule (t : vtree) (its : list vitem) (tags : option json) : Prop :=
  vpath t its (true, tags).

(** The rules that count, given the rules of a rulebase in order: of rules with the same
    items the last one. *)
Definition effective (rs : list vrule) (r : vrule) : Prop :=
  exists before after, rs = before ++ r :: after /\ ~ In (fst r) (map fst after).

(** Rules this file is about: iptables and rest only as the last item. *)
Fixpoint tame (its : list vitem) : Prop :=
  match its with
  | [] => True
  | VC _ :: its' => tame its'
  | VF f :: its' => (vf_kind f = KIptables \/ vf_kind f = KRest -> its' = []) /\ tame its'
  end.
