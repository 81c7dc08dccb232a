(** * V1SubSpec: the v1 field types that apply other rules to the rest of the message:
      tokenized, interpret, suffixed, named_suffixed, recursive, descent. *)
From Verif Require Import Base Parsers FieldSpec Engine Pdag Samp V1 V1Spec.

(** ** The type of the content

    The argument [d] of tokenized, interpret and suffixed names a type (possibly with
    arguments of its own): what is written behind the name of a field. [f] is the field
    "default" of this type. *)
Definition content (e : env) (d : text) (f : vfield) : Prop :=
  field_text e (L "default:" ++ d ++ ["%"%char]) f.

(** The context that consists of the rules "%default:TYPE%%tail:rest%" and "%default:TYPE%". *)
Definition tail_field : vfield := {| vf_name := L "tail"; vf_kind := KRest; vf_data := None; vf_raw := None |}.
Definition one_field (f : vfield) : vctx :=
  (VNode [] false None [(f, VNode [] true None [(tail_field, VNode [] true None [] [])] [])] [], []).

(** The field [f] takes the beginning of [t], with value [v], and leaves [u]. *)
Definition item (e : env) (nf : nat) (f : vfield) (t : text) (v : json) (u : text) : Prop :=
  t <> [] /\ exists n, run_field e nf (one_field f) t f 0 = Ok (n, v) /\ u = skipn n t.
(** It does not match. *)
Definition no_item (e : env) (nf : nat) (f : vfield) (t : text) : Prop :=
  t = [] \/ exists k, run_field e nf (one_field f) t f 0 = Bad k.

(** ** tokenized *)

(** [tokens item no_item sep t vs u]: [t] starts with items with the values [vs], separated by
    [sep], and [u] follows. A separator at the very end belongs to the field; one that is not
    followed by an item does not. *)
Inductive tokens (item : text -> json -> text -> Prop) (no_item : text -> Prop) (sep : text) : text -> list json -> text -> Prop :=
| tk_last : forall t v u, item t v u -> (forall w, u <> sep ++ w) -> tokens item no_item sep t [v] u
| tk_close : forall t v, item t v sep -> tokens item no_item sep t [v] []
| tk_other : forall t v u, u <> [] -> item t v (sep ++ u) -> no_item u -> tokens item no_item sep t [v] (sep ++ u)
| tk_more : forall t v u vs w, item t v (sep ++ u) -> tokens item no_item sep u vs w -> tokens item no_item sep t (v :: vs) w.

(** ** Arguments *)

(** The argument [a] stands for [s]: es_unescapeStr (and no NUL bytes). *)
Definition unesc (e : env) (a s : text) : Prop := unescape e a = s /\ ~ In NUL s.
Definition clean (s : text) : Prop := ~ In NUL s.
(** No colon: an argument that is followed by others. *)
Definition arg (s : text) : Prop := ~ In ":"%char s /\ ~ In NUL s.

(** ** interpret *)
Definition clamped (z v : Z) : Prop :=
  (z < - 2 ^ 63 /\ v = - 2 ^ 63 \/ - 2 ^ 63 <= z < 2 ^ 63 /\ v = z \/ 2 ^ 63 <= z /\ v = 2 ^ 63 - 1)%Z.
Definition signed (sg : text) (z : Z) : Z := if text_eqb sg (L "-") then (- z)%Z else z.
Definition sign (sg : text) : Prop := sg = [] \/ sg = L "+" \/ sg = L "-".

(** What follows does not start with such a byte. *)
Definition ends (P : ascii -> Prop) (r : text) : Prop := forall c w, r = c :: w -> ~ P c.
Definition blank_or_sign (c : ascii) : Prop := space c \/ c = "+"%char \/ c = "-"%char.

(** The number a text starts with, behind blanks: a sign and digits; 0 if there are none. *)
Definition decimal_text (s : text) (z : Z) : Prop :=
  exists b sg ds r, s = b ++ sg ++ ds ++ r /\ Forall space b /\ sign sg /\ all_digits ds /\ ends digit r /\
    (sg = [] -> ds = [] -> ends blank_or_sign r) /\ z = signed sg (decimal ds).
(** In base 16 the digits may stand behind 0x or 0X. *)
Definition hex_text (s : text) (z : Z) : Prop :=
  exists b sg p ds r, s = b ++ sg ++ p ++ ds ++ r /\ Forall space b /\ sign sg /\ In p [[]; L "0x"; L "0X"] /\ Forall hexdigit ds /\ ends hexdigit r /\
    (sg = [] -> p = [] -> ds = [] -> ends blank_or_sign r) /\
    (p <> [] -> ds <> []) /\ (p = [] -> ds = L "0" -> forall x c w, In x (L "xX") -> r = x :: c :: w -> ~ hexdigit c) /\
    z = signed sg (hexadecimal ds).

(** [interpreted ty s v]: the text [s], interpreted as [ty] ("int", "base10int", "base16int",
    "float", "bool"), is the value [v]. Doubles are represented by their text. *)
Inductive interpreted : string -> text -> json -> Prop :=
| in_int : forall ty s z v, In ty ["int"; "base10int"]%string -> decimal_text s z -> clamped z v -> interpreted ty s (JInt v)
| in_hex : forall s z v, hex_text s z -> clamped z v -> interpreted "base16int" s (JInt v)
| in_float : forall s, interpreted "float" s (JDouble s)
| in_false : forall s, map tolower s = L "false" \/ map tolower s = L "no" -> interpreted "bool" s (JBool false)
| in_true : forall s, map tolower s <> L "false" -> map tolower s <> L "no" -> interpreted "bool" s (JBool true).

(** ** suffixed *)

(** [listed ds l t]: the text [t] lists the texts [l], separated by bytes from [ds]. *)
Definition separators (ds : text) (t : text) : Prop := Forall (fun c => In c ds) t.
Inductive listed (ds : text) : list text -> text -> Prop :=
| ls_nil : forall b, separators ds b -> listed ds [] b
| ls_last : forall b s, separators ds b -> s <> [] -> Forall (fun c => ~ In c ds) s -> listed ds [s] (b ++ s)
| ls_more : forall b s c l t, separators ds b -> s <> [] -> Forall (fun c => ~ In c ds) s -> In c ds -> listed ds l t -> listed ds (s :: l) (b ++ s ++ c :: t).

(** The first text of [l] that [u] starts with; [w] follows it. *)
Definition first_prefix (l : list text) (u s w : text) : Prop :=
  exists before after, l = before ++ s :: after /\ u = s ++ w /\ forall s', In s' before -> forall w', u <> s' ++ w'.
Definition no_prefix (l : list text) (u : text) : Prop := forall s, In s l -> forall w, u <> s ++ w.

(** The field [f] is written suffixed:DELIMITERS:LIST:TYPE or
    named_suffixed:VALUE-NAME:SUFFIX-NAME:DELIMITERS:LIST:TYPE: the two names, the suffixes in
    LIST, and the field of this type. *)
Inductive suf_args (e : env) (f : vfield) : text -> text -> list text -> vfield -> Prop :=
| sa_plain : forall a1 a2 d ds lst l fd, vf_kind f = KSuffixed -> vf_raw f = Some (a1 ++ ":"%char :: a2 ++ ":"%char :: d) ->
    arg a1 -> arg a2 -> clean d -> unesc e a1 ds -> unesc e a2 lst -> listed ds l lst -> content e d fd ->
    suf_args e f (L "value") (L "suffix") l fd
| sa_named : forall vn sn a1 a2 d ds lst l fd, vf_kind f = KNamedSuffixed ->
    vf_raw f = Some (vn ++ ":"%char :: sn ++ ":"%char :: a1 ++ ":"%char :: a2 ++ ":"%char :: d) ->
    arg vn -> arg sn -> arg a1 -> arg a2 -> clean d -> unesc e a1 ds -> unesc e a2 lst -> listed ds l lst -> content e d fd ->
    suf_args e f vn sn l fd.

(** ** recursive, descent *)

(** The name of the field with the rest of the text: the last argument, or "tail". *)
Definition rest_name (a : option text) (rem : text) : Prop :=
  a = None /\ rem = L "tail" \/ a = Some rem /\ ~ In NUL rem.

(** The rules the field [f] of a rule in [lc] applies to the rest of the message: those of
    the same rulebase; those an application gets when it loads the file. *)
Inductive rules_of (e : env) (qs : list prs -> list prs) (nf : nat) (lc : lctx) (f : vfield) : text -> lctx -> Prop :=
| ru_recursive : forall rem, vf_kind f = KRecursive -> rest_name (vf_raw f) rem -> rules_of e qs nf lc f rem lc
| ru_descent : forall a file o more rem lc', vf_kind f = KDescent ->
    vf_raw f = Some (a ++ match more with None => [] | Some r => ":"%char :: r end) -> arg a -> rest_name more rem ->
    unesc e a file -> (exists w, files e file = Some w /\ w <> [] /\ forall r, w <> version2 ++ r) ->
    l_loadFile e qs nf (l_init o) file = EOk (lc', true) -> rules_of e qs nf lc f rem lc'.

(** What normalizing the text [t] gives. *)
Definition normalized (e : env) (nf : nat) (lc : lctx) (t : text) (js : fields) : Prop :=
  exists ok lc', l_normalize e nf lc t [] = EOk (ok, js, lc').
Definition unmatched (js : fields) : Prop := exists v, obj_get js (L "unparsed-data") = Some v.

(** The object [js] without its member [rem], which holds what is left of the text. *)
Inductive rest_object (rem : text) (js : fields) : json -> text -> Prop :=
| ro_all : obj_get js rem = None -> rest_object rem js (JObj js) []
| ro_some : forall r, obj_get js rem = Some (JStr r) -> rest_object rem js (JObj (obj_del js rem)) r
| ro_other : forall v, obj_get js rem = Some v -> (forall r, v <> JStr r) -> rest_object rem js (JObj (obj_del js rem)) [].

(** In a list (tokenized), a member that is not a non-empty text stays in the object. *)
Inductive list_object (rem : text) (js : fields) : json -> text -> Prop :=
| lo_some : forall r, r <> [] -> obj_get js rem = Some (JStr r) -> list_object rem js (JObj (obj_del js rem)) r
| lo_all : (forall r, r <> [] -> obj_get js rem <> Some (JStr r)) -> list_object rem js (JObj js) [].
Definition object (e : env) (nf : nat) (lc : lctx) (rem : text) (t : text) (v : json) (u : text) : Prop :=
  t <> [] /\ exists js, normalized e nf lc t js /\ ~ unmatched js /\ list_object rem js v u.
Definition no_object (e : env) (nf : nat) (lc : lctx) (t : text) : Prop :=
  t = [] \/ exists js, normalized e nf lc t js /\ unmatched js.
