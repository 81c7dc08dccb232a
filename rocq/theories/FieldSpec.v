(** * FieldSpec: what the field types accept and deliver, written without the model.

    Only bytes, lists and integers are used here; the parsers of Parsers.v are not
    mentioned except through the result type [pres].  [t = pre ++ post] splits what remains
    of the message into the piece the field takes and the piece behind it. *)
From Verif Require Import Base Parsers.

(** ** Character classes, by enumeration *)
Definition digit (c : ascii) : Prop := In c (L "0123456789").
Definition hexdigit (c : ascii) : Prop := In c (L "0123456789abcdefABCDEF").
Definition upper (c : ascii) : Prop := In c (L "ABCDEFGHIJKLMNOPQRSTUVWXYZ").
Definition lower (c : ascii) : Prop := In c (L "abcdefghijklmnopqrstuvwxyz").
Definition alpha (c : ascii) : Prop := lower c \/ upper c.
Definition alnum (c : ascii) : Prop := alpha c \/ digit c.
(** SP HT LF VT FF CR *)
Definition space (c : ascii) : Prop := In c [" "%char; "009"%char; "010"%char; "011"%char; "012"%char; "013"%char].

(** ** Numerals *)
Definition digit_value (c : ascii) : Z := (Z.of_nat (nat_of_ascii c) - 48)%Z.
Definition decimal (ds : text) : Z := fold_left (fun v c => 10 * v + digit_value c)%Z ds 0%Z.
Definition hexdigit_value (c : ascii) : Z :=
  let n := Z.of_nat (nat_of_ascii c) in
  (if n <? 58 then n - 48 else if n <? 71 then n - 55 else n - 87)%Z.
Definition hexadecimal (ds : text) : Z := fold_left (fun v c => 16 * v + hexdigit_value c)%Z ds 0%Z.

Definition all_digits (t : text) : Prop := Forall digit t.

(** [pre] is a maximal run of characters of class [P] (nothing of that class follows). *)
Definition max_run (P : ascii -> Prop) (pre post : text) : Prop :=
  Forall P pre /\ forall c r, post = c :: r -> ~ P c.

(** exactly [k] digits with a value between [lo] and [hi] *)
Definition num_in (k : nat) (lo hi : Z) (t : text) : Prop :=
  List.length t = k /\ all_digits t /\ (lo <= decimal t <= hi)%Z.

(** ** Result shapes *)

(** The parser result [r] takes a prefix of [t] that (with what follows) satisfies [G]; the
    delivered value is exactly the text taken (nothing when the field has no name). *)
Definition takes_text (r : pres) (want : bool) (t : text) (G : text -> text -> Prop) : Prop :=
  forall n v, r = Ok (n, v) <->
    exists pre post, t = pre ++ post /\ n = List.length pre /\ G pre post /\
                     v = (if want then JStr pre else JNull).

(** The same with a value [V pre] instead of the text. *)
Definition takes_value (r : pres) (want : bool) (t : text) (G : text -> text -> Prop)
  (V : text -> json) : Prop :=
  forall n v, r = Ok (n, v) <->
    exists pre post, t = pre ++ post /\ n = List.length pre /\ G pre post /\
                     v = (if want then V pre else JNull).

(** ** Grammars *)

Definition word_g (pre post : text) : Prop := pre <> [] /\ max_run (fun c => c <> " "%char) pre post.
Definition alpha_g (pre post : text) : Prop := pre <> [] /\ max_run alpha pre post.
Definition whitespace_g (pre post : text) : Prop := pre <> [] /\ max_run space pre post.
Definition rest_g (pre post : text) : Prop := post = [].

(** char-to: a terminator must follow; char-sep: end of message is fine, too. *)
Definition char_to_g (term : text) (pre post : text) : Prop :=
  pre <> [] /\ Forall (fun c => ~ In c term) pre /\ exists c r, post = c :: r /\ In c term.
Definition char_sep_g (term : text) (pre post : text) : Prop :=
  max_run (fun c => ~ In c term) pre post.

(** a literal *)
Definition literal_g (lit : text) (pre post : text) : Prop := pre = lit.

(** a quote, text without a quote, a quote *)
Definition quoted_g (pre post : text) : Prop :=
  exists inner, pre = L """" ++ inner ++ L """" /\ ~ In """"%char inner.

(** number: a maximal non-empty run of digits *)
Definition number_g (maxval : Z) (pre post : text) : Prop :=
  pre <> [] /\ max_run digit pre post /\ (0 < maxval -> decimal pre <= maxval)%Z.

(** hexnumber as the code has it: "0x", a maximal (possibly empty) run of hex digits, and a
    white space character behind *)
Definition hex_g (maxval : Z) (pre post : text) : Prop :=
  exists hs, pre = L "0x" ++ hs /\ Forall hexdigit hs /\
    (exists c r, post = c :: r /\ space c) /\
    (0 < maxval -> hexadecimal hs mod 2 ^ 64 <= maxval)%Z.

(** float as the code has it *)
Definition float_body (b : text) : Prop :=
  all_digits b \/ exists x y, b = x ++ L "." ++ y /\ all_digits x /\ all_digits y.
Definition float_g (pre post : text) : Prop :=
  pre <> [] /\
  exists sign body, pre = sign ++ body /\ (sign = [] \/ sign = L "-") /\ float_body body /\
    (** maximal: no further digit, no further dot unless there was one, no missed sign *)
    (forall c r, post = c :: r -> ~ digit c /\ (c = "."%char -> In "."%char body)) /\
    (sign = [] -> forall c r, pre ++ post = c :: r -> c <> "-"%char).

(** one to three digits, value at most 255, greedy *)
Definition octet (o rest : text) : Prop :=
  1 <= List.length o <= 3 /\ all_digits o /\ (decimal o <= 255)%Z /\
  (List.length o < 3 -> forall c r, rest = c :: r -> ~ digit c).
Definition ipv4_g (pre post : text) : Prop :=
  exists a b c d, pre = a ++ L "." ++ b ++ L "." ++ c ++ L "." ++ d /\
    octet a (L ".") /\ octet b (L ".") /\ octet c (L ".") /\ octet d post.

Definition mac48_g (pre post : text) : Prop :=
  exists sep, (sep = ":"%char \/ sep = "-"%char) /\
  exists a b c d e f g h i j k l,
    pre = [a; b; sep; c; d; sep; e; f; sep; g; h; sep; i; j; sep; k; l] /\
    Forall hexdigit [a; b; c; d; e; f; g; h; i; j; k; l].

Definition date_iso_g (pre post : text) : Prop :=
  exists y m d, pre = y ++ L "-" ++ m ++ L "-" ++ d /\
    (List.length y = 4 /\ all_digits y) /\ num_in 2 1 12 m /\ num_in 2 1 31 d.

Definition time24_g (pre post : text) : Prop :=
  exists h m s, pre = h ++ L ":" ++ m ++ L ":" ++ s /\
    num_in 2 0 23 h /\ num_in 2 0 59 m /\ num_in 2 0 59 s.
Definition time12_g (pre post : text) : Prop :=
  exists h m s, pre = h ++ L ":" ++ m ++ L ":" ++ s /\
    num_in 2 0 12 h /\ num_in 2 0 59 m /\ num_in 2 0 59 s.
Definition duration_g (pre post : text) : Prop :=
  exists h m s, pre = h ++ L ":" ++ m ++ L ":" ++ s /\
    (num_in 1 0 9 h \/ num_in 2 0 99 h) /\ num_in 2 0 59 m /\ num_in 2 0 59 s.

Definition kernel_ts_g (pre post : text) : Prop :=
  exists s u, pre = L "[" ++ s ++ L "." ++ u ++ L "]" /\
    all_digits s /\ 5 <= List.length s <= 12 /\ all_digits u /\ List.length u = 6.

(** string-to: [pre] is not empty, the search string follows, and does not start earlier
    (a start at the very first character is not considered). *)
Definition string_to_g (s : text) (pre post : text) : Prop :=
  pre <> [] /\ (exists r, post = s ++ r) /\
  forall p q r, pre ++ post = p ++ q -> p <> [] -> List.length p < List.length pre -> q <> s ++ r.
