(** * V1FieldSpec: the v1 field types: the misbehaviour they are exposed to, and the texts
      they take where they differ from the v2 types of the same name. *)
From Verif Require Import Base Parsers SafetySpec V1.

(** ** Misbehaviour *)

(** [vhazard e f msg u]: on the message [msg] the field [f] is exposed to [u]. *)
Inductive vhazard (e : env) (f : vfield) (msg : text) : ub -> Prop :=
(* dates: ten digits in a row, where int does not wrap *)
| vz_date : In (vf_kind f) [KDate3164; KDate5424] -> wraps e = false -> long_run 10 msg -> vhazard e f msg SignedOverflow
(* char-to, char-sep: the extra data must be one byte *)
| vz_char_none : In (vf_kind f) [KCharTo; KCharSep] -> vf_data f = None -> vhazard e f msg NullDeref
| vz_char_assert d : In (vf_kind f) [KCharTo; KCharSep] -> vf_data f = Some d -> List.length d <> 1 -> asserts_on e = true -> vhazard e f msg AssertFail
| vz_char_empty : In (vf_kind f) [KCharTo; KCharSep] -> vf_data f = Some [] -> asserts_on e = false -> vhazard e f msg UninitRead
(* string-to: extra data needed; NUL bytes *)
| vz_str_assert : vf_kind f = KStringTo -> vf_data f = None -> asserts_on e = true -> vhazard e f msg AssertFail
| vz_str_none : vf_kind f = KStringTo -> vf_data f = None -> asserts_on e = false -> vhazard e f msg NullDeref
| vz_str_nul d : vf_kind f = KStringTo -> vf_data f = Some d -> In NUL d \/ d = [] /\ In NUL msg -> vhazard e f msg OobLit
(* cef *)
| vz_cef_assert : vf_kind f = KCEF -> asserts_on e = true -> vhazard e f msg AssertFail
| vz_cef_bs : vf_kind f = KCEF -> ends_bs msg -> vhazard e f msg UninitRead
(* iptables has no parser function: the matcher handles it by itself *)
| vz_ipt : vf_kind f = KIptables -> vhazard e f msg NullDeref
(* the types that apply other rules to the rest of the message: see [V1SubSpec] *)
| vz_sub : is_sub (vf_kind f) = true -> vhazard e f msg V1Engine.

(** A field with the extra data its type needs. *)
Definition complete (f : vfield) : Prop :=
  match vf_kind f with
  | KCharTo | KCharSep => exists c, vf_data f = Some [c]
  | KStringTo => exists d, vf_data f = Some d /\ d <> [] /\ ~ In NUL d
  | KIptables | KTokenized | KRecursive | KDescent | KInterpret | KSuffixed | KNamedSuffixed => False
  | _ => True
  end.

(** Types that match the empty text. *)
Definition may_be_empty (k : vkind) : bool :=
  match k with KCharSep | KNVList | KLEA | KRest => true | _ => is_sub k end.
(** Types that never end outside the message, nor before the position they start at. *)
Definition ends_inside (k : vkind) : bool :=
  match k with KCee | KCEF | KLEA => false | _ => true end.
