(** * V1LoadSpec: rulebase files without "version=2": the rules and annotations their lines
      stand for. The division of the text into lines is that of [LineSpec]. *)
From Verif Require Import Base Parsers Engine Pdag Samp LineSpec BuiltSpec LoadSpec AnnotSpec V1 V1Spec V1FieldSpec.

(** Lines of 10K bytes and more are not read as a whole. *)
Definition short_lines (ls : list (text * N)) : Prop :=
  Forall (fun l => (N.of_nat (List.length (fst l)) < 10 * 1024)%N) ls.

(** Annotations have no comments here. *)
Inductive v1_body : text -> list (text * text) -> Prop :=
| vb_end : v1_body [] []
| vb_add : forall b f b' v u fvs, AnnotSpec.blanks b -> name f -> AnnotSpec.blanks b' -> annot_value v -> v1_body u fvs ->
    v1_body (b ++ "+"%char :: f ++ "="%char :: b' ++ """"%char :: v ++ """"%char :: u) ((f, v) :: fvs).

(** Lines without effect: of unknown type (include and type among them), without type. *)
Definition v1_idle (l : text) : Prop :=
  (exists ty u, l = ty ++ "="%char :: u /\ ~ In "="%char ty /\ ~ In ty (map L ["prefix"; "extendprefix"; "rule"; "annotate"]%string)) \/
  (exists u, l = "="%char :: u).

(** [v1_reads e fuel p ls rs al]: with the prefix [p] in force, the lines [ls] stand for the
    rules [rs] and the annotations [al], in this order. ([fuel]: that of the model of the
    annotation reader.) Every rule is well formed. *)
Inductive v1_reads (e : env) (fuel : nat) : option text -> list (text * N) -> list vrule -> list annotation -> Prop :=
| vr_nil : forall p, v1_reads e fuel p [] [] []
| vr_rule : forall p tags r its n ls rs al, Forall good_tag tags -> r <> [] -> rule_text e (in_force p ++ r) its ->
    v1_reads e fuel p ls rs al -> v1_reads e fuel p ((rule_line tags r, n) :: ls) ((its, tag_list tags) :: rs) al
| vr_prefix : forall p t n ls rs al, v1_reads e fuel (Some t) ls rs al -> v1_reads e fuel p ((L "prefix=" ++ t, n) :: ls) rs al
| vr_extend : forall p t n ls rs al, v1_reads e fuel (Some (p ++ t)) ls rs al -> v1_reads e fuel (Some p) ((L "extendprefix=" ++ t, n) :: ls) rs al
| vr_annot : forall p tag b u fvs n ls rs al, name tag -> AnnotSpec.blanks b -> v1_body u fvs -> List.length fvs + 2 <= fuel ->
    v1_reads e fuel p ls rs al ->
    v1_reads e fuel p ((L "annotate=" ++ tag ++ b ++ ":"%char :: u, n) :: ls) rs ((tag, fvs) :: al)
| vr_idle : forall p l n ls rs al, v1_idle l -> v1_reads e fuel p ls rs al -> v1_reads e fuel p ((l, n) :: ls) rs al.

(** The file [f] is a rulebase for this engine, with the rules [rs] and annotations [al];
    [p] is the prefix in force before. It does not start with the line "version=2". *)
Definition v1_file (e : env) (fuel : nat) (p : option text) (f : text) (rs : list vrule) (al : list annotation) : Prop :=
  exists t n ls, files e f = Some t /\ t <> [] /\ (forall u, t <> L "version=2" ++ LF :: u) /\
    rulebase true t n ls /\ short_lines ls /\ v1_reads e fuel p ls rs al.

(** A context in which no v2 rulebase was loaded. *)
Definition no_v2 (lc : lctx) : Prop := c_version (l_ctx lc) = 0%N \/ c_version (l_ctx lc) = 1%N.

(** ** Events *)

(** The values of a match stored under the name [k]: that of the first field that gives one.
    Fields named "-" are not stored. An iptables field gives each of its pairs, of pairs with
    the same name the last one. *)
Definition stored_as (f : vfield) (k : text) : Prop := vf_name f <> L "-" /\ cstr (vf_name f) = k.
Definition gives (f : vfield) (v : json) (k : text) (w : json) : Prop :=
  (vf_kind f <> KIptables /\ stored_as f k /\ w = v) \/
  (vf_kind f = KIptables /\ exists a b, v = JObj (a ++ (k, w) :: b) /\ ~ In k (map fst b)).
Definition value_of (vs : list (vfield * json)) (k : text) (w : json) : Prop :=
  exists before f v after, vs = before ++ (f, v) :: after /\ gives f v k w /\ forall g x, In (g, x) before -> forall y, ~ gives g x k y.

(** The event for a match with values [vs] of a rule with tags [tags]; [js0] is the object
    given by the caller. *)
Definition v1_event (js0 : fields) (vs : list (vfield * json)) (tags : list text) (al : list annotation) (out : fields) : Prop :=
  forall k,
    (exists v, annotated al tags k v /\ obj_get out k = Some (JStr v)) \/
    ((forall v, ~ annotated al tags k v) /\
       ((k = L "event.tags" /\ tags <> [] /\ obj_get out k = Some (JArr (map JStr tags))) \/
        (~ (k = L "event.tags" /\ tags <> []) /\
           ((exists v, value_of vs k v /\ obj_get out k = Some v) \/
            ((forall v, ~ value_of vs k v) /\ obj_get out k = obj_get js0 k))))).

(** The report for a message that no rule matches: the message and what of it is left, all
    else as given by the caller. *)
Definition v1_report (js0 : fields) (msg rest : text) (out : fields) : Prop :=
  obj_get out (L "originalmsg") = Some (JStr msg) /\ obj_get out (L "unparsed-data") = Some (JStr rest) /\
  forall k, k <> L "originalmsg" -> k <> L "unparsed-data" -> obj_get out k = obj_get js0 k.

(** The beginning [a] of the message is what the initial part of a rule takes (a field may end
    behind the message). *)
Definition got_to (runf : vfield -> nat -> res (nat * json)) (msg : text) (rs : list vrule) (a : text) : Prop :=
  exists its1 its2 tags vs o', effective rs (its1 ++ its2, tags) /\ takes msg runf (S (List.length msg)) its1 0 o' vs /\
    List.length a = Nat.min o' (List.length msg).

(** Rules none of whose fields matches the empty text. *)
Definition never_empty (its : list vitem) : Prop :=
  forall f, In (VF f) its -> may_be_empty (vf_kind f) = false \/ vf_kind f = KRest.
