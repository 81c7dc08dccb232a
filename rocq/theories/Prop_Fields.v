(** * Properties C11-C23: the simple field types.
    Specifications: FieldSpec.v.  Every theorem is an equivalence: the field succeeds,
    taking n bytes and delivering v, if and only if the grammar says so; in particular
    nothing undefined happens on those inputs. *)
From Verif Require Import Base Time Parsers BaseFacts FieldSpec FieldFacts FieldFacts2 FieldFacts3 FieldFacts4 FieldFacts5 Engine Pdag Samp TestEnv.

(** ** C11 number *)
Theorem C11_number : forall e maxval want t,
  (decimal (firstn (scan isdigit t) t) + 48 < 2 ^ 63)%Z ->
  takes_text (parseNumber e FmtString maxval want t) want t (number_g maxval) /\
  takes_value (parseNumber e FmtNumber maxval want t) want t (number_g maxval) (fun p => JInt (decimal p)).
Proof. exact number_exact. Qed.
Print Assumptions C11_number.
Example C11_number_ex : parseNumber env0 FmtNumber 5000 true (L "4711 x") = Ok (4, JInt 4711).
Proof. reflexivity. Qed.

(** Larger numbers, on a machine that wraps: the value compared and delivered is the value
    modulo 2^64 (as a signed number). *)
Theorem C11_number_wraps : forall e maxval want t, wraps e = true ->
  takes_value (parseNumber e FmtNumber maxval want t) want t
    (fun pre post => pre <> [] /\ max_run digit pre post /\ (0 < maxval -> wrap 64 (decimal pre) <= maxval)%Z)
    (fun p => JInt (wrap 64 (decimal p))).
Proof. intros e maxval want t H. exact (proj2 (number_wraps e maxval want t H)). Qed.
Print Assumptions C11_number_wraps.

(** Therefore the maxval limit does not hold: 2^64+1 passes maxval=5 (and is delivered as
    1); with strict C semantics the addition is a signed overflow. *)
Theorem C11_number_maxval_refuted :
  (exists e t n, wraps e = true /\ parseNumber e FmtNumber 5 true t = Ok (n, JInt 1) /\
                 decimal t = (2 ^ 64 + 1)%Z /\ n = List.length t) /\
  (exists e t, wraps e = false /\ parseNumber e FmtNumber 5 true t = Ub SignedOverflow).
Proof.
  split.
  - exists {| wraps := true; asserts_on := true; char_signed := true; cur_year := 2026; json_tok := tok0;
              json_show := fun _ => []; json_num := fun _ => 0%Z; json_erroff := fun _ => 0;
              unescape := fun t => t; files := fun _ => None |}, (L "18446744073709551617"), 20.
    vm_compute. auto.
  - exists env0, (L "18446744073709551617"). vm_compute. auto.
Qed.
Print Assumptions C11_number_maxval_refuted.

(** ** C12 hexnumber (as implemented: no digit is required behind "0x", and the value is
    taken modulo 2^64) *)
Theorem C12_hexnumber : forall maxval want t,
  takes_text (parseHexNumber FmtString maxval want t) want t (hex_g maxval) /\
  takes_value (parseHexNumber FmtNumber maxval want t) want t (hex_g maxval)
    (fun p => JInt (wrap 64 (hexadecimal (skipn 2 p)))).
Proof. exact (fun maxval want t => conj (proj1 (hex_exact FmtString maxval want t) eq_refl)
                                         (proj2 (hex_exact FmtNumber maxval want t) eq_refl)). Qed.
Print Assumptions C12_hexnumber.
Example C12_hexnumber_ex : parseHexNumber FmtNumber 0 true (L "0x1aF rest") = Ok (5, JInt 431).
Proof. reflexivity. Qed.
(** The documented "one or more digits" and the maxval limit are violated. *)
Theorem C12_hexnumber_refuted :
  (exists t, parseHexNumber FmtNumber 0 true t = Ok (2, JInt 0) /\ t = L "0x ") /\
  (exists t, parseHexNumber FmtNumber 5 true t = Ok (19, JInt 1) /\ t = L "0x10000000000000001 ").
Proof. split; eexists; split; try reflexivity; vm_compute; reflexivity. Qed.
Print Assumptions C12_hexnumber_refuted.

(** ** C13 float *)
Theorem C13_float : forall want t,
  takes_text (parseFloat FmtString want t) want t float_g /\
  takes_value (parseFloat FmtNumber want t) want t float_g JDouble.
Proof. exact float_exact. Qed.
Print Assumptions C13_float.
Example C13_float_ex : parseFloat FmtNumber true (L "-17.25.3") = Ok (6, JDouble (L "-17.25")).
Proof. reflexivity. Qed.
(** No digit is needed: "-" and "." are accepted. *)
Theorem C13_float_digit_refuted :
  exists t u, parseFloat FmtNumber true t = Ok (1, JDouble (L "-")) /\ t = L "-x" /\
              parseFloat FmtNumber true u = Ok (1, JDouble (L ".")) /\ u = L ". ".
Proof. do 2 eexists. repeat split; reflexivity. Qed.
Print Assumptions C13_float_digit_refuted.

(** ** C14 ipv4 *)
Theorem C14_ipv4 : forall want t, takes_text (parseIPv4 want t) want t ipv4_g.
Proof. exact ipv4_exact. Qed.
Print Assumptions C14_ipv4.
Example C14_ipv4_ex : parseIPv4 true (L "192.168.1.255/24") = Ok (13, JStr (L "192.168.1.255")).
Proof. reflexivity. Qed.

(** ** C16 mac48 *)
Theorem C16_mac48 : forall want t, takes_text (parseMAC48 want t) want t mac48_g.
Proof. exact mac48_exact. Qed.
Print Assumptions C16_mac48.
Example C16_mac48_ex : parseMAC48 true (L "00-1b-2C-3d-4e-5f!") = Ok (17, JStr (L "00-1b-2C-3d-4e-5f")).
Proof. reflexivity. Qed.

(** ** C17 date-iso, time-24hr, time-12hr, duration *)
Theorem C17_date_iso : forall want t, takes_text (parseISODate want t) want t date_iso_g.
Proof. exact date_iso_exact. Qed.
Print Assumptions C17_date_iso.
Theorem C17_time24 : forall want t, takes_text (parseTime24hr want t) want t time24_g.
Proof. exact time24_exact. Qed.
Print Assumptions C17_time24.
Theorem C17_time12 : forall want t, takes_text (parseTime12hr want t) want t time12_g.
Proof. exact time12_exact. Qed.
Print Assumptions C17_time12.
Theorem C17_duration : forall want t, takes_text (parseDuration want t) want t duration_g.
Proof. exact duration_exact. Qed.
Print Assumptions C17_duration.
Example C17_ex : parseISODate true (L "2026-12-31.") = Ok (10, JStr (L "2026-12-31")) /\
  parseTime24hr true (L "23:59:59Z") = Ok (8, JStr (L "23:59:59")) /\
  parseTime12hr true (L "13:00:00") = Bad 0 /\
  parseDuration true (L "7:05:33 ") = Ok (7, JStr (L "7:05:33")).
Proof. repeat split; reflexivity. Qed.

(** ** C18 kernel-timestamp *)
Theorem C18_kernel_timestamp : forall want t,
  takes_text (parseKernelTimestamp want t) want t kernel_ts_g.
Proof. exact kernel_ts_exact. Qed.
Print Assumptions C18_kernel_timestamp.
Example C18_ex : parseKernelTimestamp true (L "[123456789012.123456] x") = Ok (21, JStr (L "[123456789012.123456]")).
Proof. reflexivity. Qed.

(** ** C19 word, alpha, whitespace, rest *)
Theorem C19_word : forall want t, takes_text (parseWord want t) want t word_g.
Proof. exact word_exact. Qed.
Print Assumptions C19_word.
Theorem C19_alpha : forall want t, takes_text (parseAlpha want t) want t alpha_g.
Proof. exact alpha_exact. Qed.
Print Assumptions C19_alpha.
Theorem C19_whitespace : forall want t, takes_text (parseWhitespace want t) want t whitespace_g.
Proof. exact whitespace_exact. Qed.
Print Assumptions C19_whitespace.
Theorem C19_rest : forall want t, takes_text (parseRest want t) want t rest_g.
Proof. exact rest_exact. Qed.
Print Assumptions C19_rest.
Example C19_ex : parseWord true (L "ab,c d") = Ok (4, JStr (L "ab,c")) /\ parseAlpha true (L "abC1") = Ok (3, JStr (L "abC"))
  /\ parseRest true [] = Ok (0, JStr []).
Proof. repeat split; reflexivity. Qed.

(** ** C20 char-to, char-sep *)
Theorem C20_char_to : forall term want t,
  takes_text (parseCharTo term want t) want t (char_to_g term).
Proof. exact char_to_exact. Qed.
Print Assumptions C20_char_to.
Theorem C20_char_sep : forall term want t,
  takes_text (parseCharSeparated term want t) want t (char_sep_g term).
Proof. exact char_sep_exact. Qed.
Print Assumptions C20_char_sep.
Example C20_ex : parseCharTo (L ",;") true (L "ab;c,") = Ok (2, JStr (L "ab")) /\
  parseCharTo (L ",;") true (L "abc") = Bad 0 /\ parseCharSeparated (L ",;") true (L "abc") = Ok (3, JStr (L "abc")).
Proof. repeat split; reflexivity. Qed.

(** ** C21 string-to: holds for search strings of two or more characters *)
Theorem C21_string_to : forall s want t, 2 <= List.length s -> ~ In NUL s ->
  takes_text (parseStringTo s want t) want t (string_to_g s).
Proof. exact string_to_exact. Qed.
Print Assumptions C21_string_to.
Example C21_ex : parseStringTo (L "::") true (L "a:b::c::") = Ok (3, JStr (L "a:b")).
Proof. reflexivity. Qed.
(** ... and a one-character search string never matches at all. *)
Theorem C21_string_to_one_char_refuted : forall c want t n v, parseStringTo [c] want t <> Ok (n, v).
Proof. exact string_to_short. Qed.
Print Assumptions C21_string_to_one_char_refuted.

(** ** C22 quoted-string *)
Theorem C22_quoted_string : forall want t, takes_text (parseQuotedString want t) want t quoted_g.
Proof. exact quoted_exact. Qed.
Print Assumptions C22_quoted_string.
Example C22_ex : parseQuotedString true (L """a b"" c") = Ok (5, JStr (L """a b""")).
Proof. reflexivity. Qed.

(** ** C23 literal *)
Theorem C23_literal : forall lit want t, ~ In NUL lit -> ~ In NUL t ->
  takes_text (parseLiteral lit want t) want t (literal_g lit).
Proof. exact literal_exact. Qed.
Print Assumptions C23_literal.
Example C23_ex : parseLiteral (L "ab") true (L "abc") = Ok (2, JStr (L "ab")) /\ ~ In NUL (L "ab").
Proof. split; [reflexivity|]. vm_compute. intuition discriminate. Qed.
(** A message with an embedded NUL byte makes the literal comparison run past the end of
    the literal. *)
Theorem C23_literal_nul_refuted : exists lit t, ~ In NUL lit /\ parseLiteral lit true t = Ub OobLit.
Proof. exists (L "ab"), (L "ab" ++ [NUL; "c"%char]). split; [vm_compute; intuition discriminate|reflexivity]. Qed.
Print Assumptions C23_literal_nul_refuted.
