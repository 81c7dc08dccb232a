(** * Base: bytes, ctype, checked reads, C integers, libfastjson values.

    Everything the models of the individual C functions share. *)
From Coq Require Export List Arith ZArith NArith Bool Ascii String Lia.
Export ListNotations.
#[global] Open Scope list_scope.
#[global] Open Scope nat_scope.

(** A message, a field name, a literal: a sequence of bytes. *)
Definition text := list ascii.

(** String constants as byte sequences. *)
Definition L (s : string) : text := list_ascii_of_string s.

(** The unsigned value of a byte. *)
Definition code (c : ascii) : N := N_of_ascii c.

Definition NUL : ascii := ascii_of_N 0.
Definition chr (n : N) : ascii := ascii_of_N n.

(** Byte equality (C [==] on char). *)
Definition ceq (a b : ascii) : bool := Ascii.eqb a b.

Fixpoint text_eqb (a b : text) : bool :=
  match a, b with
  | [], [] => true
  | x :: a', y :: b' => ceq x y && text_eqb a' b'
  | _, _ => false
  end.

(** ** ctype.h in the "C" locale.
    Simplification: the code passes plain [char] to isspace & co.; for bytes >= 128
    glibc answers 0 in the "C" locale whatever the signedness of char; that is what
    is modelled. *)
Definition in_range (lo hi : N) (c : ascii) : bool := (N.leb lo (code c) && N.leb (code c) hi)%bool.

(** helpers.h 12-15 [myisdigit]. *)
Definition isdigit (c : ascii) : bool := in_range 48 57 c.
(** isxdigit(3) *)
Definition isxdigit (c : ascii) : bool := (isdigit c || in_range 97 102 c || in_range 65 70 c)%bool.
(** isspace(3): SP, HT, LF, VT, FF, CR *)
Definition isspace (c : ascii) : bool := (ceq c " " || in_range 9 13 c)%bool.
(** isalpha(3) *)
Definition isalpha (c : ascii) : bool := (in_range 97 122 c || in_range 65 90 c)%bool.
(** isalnum(3) *)
Definition isalnum (c : ascii) : bool := (isalpha c || isdigit c)%bool.
(** tolower(3) *)
Definition tolower (c : ascii) : ascii := if in_range 65 90 c then chr (code c + 32) else c.

(** ** Outcomes *)

(** Kinds of undefined (or aborting) behaviour. *)
Inductive ub : Type :=
| OobRead          (* read outside the message buffer (bytes + terminating NUL) *)
| OobLit           (* read past the end of a configured string *)
| OobIndex         (* table index out of range *)
| OobWrite         (* write outside an allocation *)
| OobOffset        (* parser called with an offset behind the end of the message *)
| SignedOverflow   (* signed integer overflow *)
| DivZero
| NullDeref
| AssertFail       (* assert() fails: the process aborts *)
| UninitRead       (* value of an uninitialised byte used *)
| UseAfterFree
| V1Engine         (* control passes to code that is modelled elsewhere (V1.v) *)
| OutOfFuel.       (* model fuel exhausted: says nothing about the code *)

(** Result of a field parser: success with a value, failure (LN_WRONGPARSER) together
    with the [*parsed] count left behind, or undefined behaviour. *)
Inductive res (A : Type) : Type :=
| Ok (a : A)
| Bad (parsed : nat)
| Ub (u : ub).
Arguments Ok {A} a.
Arguments Bad {A} parsed.
Arguments Ub {A} u.

Definition bind {A B} (x : res A) (f : A -> res B) : res B :=
  match x with Ok a => f a | Bad n => Bad n | Ub u => Ub u end.

Notation "'let*' x ':=' e 'in' k" := (bind e (fun x => k))
  (at level 200, x pattern, e at level 100, k at level 200, right associativity).

(** [if(!b) goto done;] where [*parsed] is still 0. *)
Notation "'check' b ';;' k" := (if b then k else Bad 0)
  (at level 200, b at level 100, k at level 200, right associativity).

(** ** Reading the message.
    The message is the buffer str[0..strLen-1]; the API contract (and the code's own
    use of [json_object_new_string(str+offs)], pdag.c) demands str[strLen] = NUL.
    [rd t k] is the read of the byte [k] positions behind the current one where [t] is
    what remains of the message: readable are the bytes of [t] and the NUL behind. *)
Definition rd (t : text) (k : nat) : res ascii :=
  match nth_error t k with
  | Some c => Ok c
  | None => if Nat.eqb k (List.length t) then Ok NUL else Ub OobRead
  end.

(** Read of a configured, NUL-terminated string (a literal). *)
Definition rdlit (l : text) (k : nat) : res ascii :=
  match nth_error l k with
  | Some c => Ok c
  | None => if Nat.eqb k (List.length l) then Ok NUL else Ub OobLit
  end.

(** [while(i < strLen && P(c[i])) ++i;] seen from the start position: how far it gets.
    (Base lemma [scan_is_loop] in BaseFacts.v ties it to the loop over checked reads.) *)
Fixpoint scan (P : ascii -> bool) (t : text) : nat :=
  match t with
  | c :: t' => if P c then S (scan P t') else 0
  | [] => 0
  end.

(** A C string is the bytes before the first NUL. *)
Fixpoint cstr (t : text) : text :=
  match t with
  | [] => []
  | c :: t' => if ceq c NUL then [] else c :: cstr t'
  end.

(** ** C integers *)

(** Parameters of the platform, of the build and of the environment (oracles). *)
Inductive json : Type :=
| JNull                       (* a NULL json_object pointer *)
| JBool (b : bool)
| JInt (z : Z)
| JDouble (repr : text)       (* only its textual representation is modelled *)
| JStr (s : text)
| JArr (l : list json)
| JObj (l : list (text * json)).

Record env : Type := {
  wraps : bool;         (* signed overflow: true = two's complement wrap (what compilers
                           usually emit), false = report it as undefined *)
  asserts_on : bool;    (* assert() compiled in (configure --enable-debug) *)
  char_signed : bool;   (* plain char is signed (x86) *)
  cur_year : Z;         (* the current year, gmtime_r(time(NULL)) *)
  json_tok : text -> option (json * nat);
                        (* json_tokener_parse_ex: object and char_offset *)
  json_show : json -> text;  (* json_object_to_json_string (C string) *)
  json_num : json -> Z;      (* json_object_get_int/_int64 of a value that is not a number *)
  json_erroff : text -> nat; (* char_offset of the tokener after a failed parse *)
  unescape : text -> text;   (* libestr es_unescapeStr *)
  files : text -> option text; (* contents of the rulebase files that can be opened *)
}.

Definition fits (w : Z) (z : Z) : bool := (Z.leb (- 2 ^ (w - 1)) z && Z.ltb z (2 ^ (w - 1)))%bool.

Definition wrap (w : Z) (z : Z) : Z :=
  ((z + 2 ^ (w - 1)) mod 2 ^ w - 2 ^ (w - 1))%Z.

(** Result [z] of a signed [w]-bit operation. *)
Definition sint (e : env) (w : Z) (z : Z) : res Z :=
  if fits w z then Ok z else if wraps e then Ok (wrap w z) else Ub SignedOverflow.

(** Digit value, C: [c - '0']. *)
Definition dval (c : ascii) : Z := (Z.of_N (code c) - 48)%Z.

(** [v * 10 + c - '0'], every step in signed [w]-bit arithmetic, left to right. *)
Definition acc10 (e : env) (w : Z) (v : Z) (c : ascii) : res Z :=
  let* a := sint e w (v * 10) in
  let* b := sint e w (a + Z.of_N (code c)) in
  sint e w (b - 48).

(** ** libfastjson objects: lists of members in insertion order. *)
Definition fields := list (text * json).

(** json_object_object_get_ex: first member with that key. *)
Fixpoint obj_get (o : fields) (k : text) : option json :=
  match o with
  | [] => None
  | (k', v) :: o' => if text_eqb k k' then Some v else obj_get o' k
  end.

(** json_object_object_add: replace the value of the existing key, else append. *)
Fixpoint obj_add (o : fields) (k : text) (v : json) : fields :=
  match o with
  | [] => [(k, v)]
  | (k', v') :: o' => if text_eqb k k' then (k', v) :: o' else (k', v') :: obj_add o' k v
  end.

(** json_object_object_add_ex with JSON_C_OBJECT_ADD_KEY_IS_NEW: append unchecked. *)
Definition obj_add_new (o : fields) (k : text) (v : json) : fields := o ++ [(k, v)].

(** json_object_object_del: delete the member with that key. *)
Fixpoint obj_del (o : fields) (k : text) : fields :=
  match o with
  | [] => []
  | (k', v') :: o' => if text_eqb k k' then o' else (k', v') :: obj_del o' k
  end.

(** json_object_get_string: the C string of a string value, NULL for a null value, the
    printed form of any other value. *)
Definition jstring (e : env) (j : json) : option text :=
  match j with
  | JNull => None
  | JStr s => Some (cstr s)
  | _ => Some (json_show e j)
  end.

(** json_object_new_string_len(str+offs, n): the first [n] bytes of what remains. *)
Definition jsub (want : bool) (t : text) (n : nat) : json :=
  if want then JStr (firstn n t) else JNull.
