(** * AnnotSpec: annotation lines and what they stand for. *)
From Verif Require Import Base Parsers Engine Pdag Samp LineSpec.

Definition name_char (c : ascii) : Prop :=
  In c (L "abcdefghijklmnopqrstuvwxyzABCDEFGHIJKLMNOPQRSTUVWXYZ0123456789_.").
Definition name (t : text) : Prop := t <> [] /\ Forall name_char t.
Definition blanks (t : text) : Prop := Forall (fun c => In c (L " " ++ map chr [9; 10; 11; 12; 13]%N)) t.
Definition annot_value (v : text) : Prop := v <> [] /\ ~ In """"%char v /\ ~ In NUL v.

(** [annot_body u fvs]: [u] is a list of additions (blanks) + name = (blanks) "value", perhaps
    with a comment at the end; [fvs] are the names and values in the order written. *)
Inductive annot_body : text -> list (text * text) -> Prop :=
| ab_end : annot_body [] []
| ab_comment : forall b x, blanks b -> annot_body (b ++ "#"%char :: x) []
| ab_add : forall b f b' v u fvs, blanks b -> name f -> blanks b' -> annot_value v -> annot_body u fvs ->
    annot_body (b ++ "+"%char :: f ++ "="%char :: b' ++ """"%char :: v ++ """"%char :: u) ((f, v) :: fvs).
(** An annotation: a tag, and fields with their values. *)
Definition annotation := (text * list (text * text))%type.
Definition annot_line (a : annotation) (l : text) : Prop :=
  exists b u, l = L "annotate=" ++ fst a ++ b ++ ":"%char :: u /\ name (fst a) /\ blanks b /\ annot_body u (snd a).

(** [annots_read fuel ls al]: the annotation lines among [ls] are the annotations [al] (none
    of them with [fuel] or more fields: the fuel of the model of the reader). *)
Inductive annots_read (fuel : nat) : list (text * N) -> list annotation -> Prop :=
| ar_nil : annots_read fuel [] []
| ar_other : forall l n ls al, (forall u, l <> L "annotate=" ++ u) -> annots_read fuel ls al -> annots_read fuel ((l, n) :: ls) al
| ar_annot : forall l n a ls al, annot_line a l -> List.length (snd a) + 2 <= fuel -> annots_read fuel ls al ->
    annots_read fuel ((l, n) :: ls) (a :: al).

(** The value [v] is given to the field [f] by an annotation of one of the tags [ts]. *)
Definition annotated (al : list annotation) (ts : list text) (f v : text) : Prop :=
  exists tag fvs, In tag ts /\ In (tag, fvs) al /\ In (f, v) fvs.

(** The annotations of a context are [al]. *)
Definition has_annots (cx : ctx) (al : list annotation) : Prop :=
  NoDup (map fst (c_annots cx)) /\
  forall tag, match findAnnot (c_annots cx) tag with
    | None => forall fvs, ~ In (tag, fvs) al
    | Some ops => forall op, In op ops <-> exists fvs f v, In (tag, fvs) al /\ In (f, v) fvs /\ op = AopAdd (Some f) (Some v)
    end.
Definition clean_annots (al : list annotation) : Prop :=
  forall tag fvs f v, In (tag, fvs) al -> In (f, v) fvs -> ~ In NUL f /\ ~ In NUL v.

(** Fields written after the annotations, if the options ask for them. *)
Definition written_last (o : opts) (f : text) : Prop :=
  (f = L "originalmsg" /\ opt_orig o = true) \/ (f = L "metadata" /\ (opt_rule o || opt_loc o)%bool = true).
(** The event [out] is the event [out0] with the annotations of the tags [ts] added. *)
Definition annotated_event (o : opts) (al : list annotation) (ts : list text) (out0 out : fields) : Prop :=
  forall f, (written_last o f -> obj_get out f = obj_get out0 f) /\
    (~ written_last o f ->
       (exists v, annotated al ts f v /\ obj_get out f = Some (JStr v)) \/
       ((forall v, ~ annotated al ts f v) /\ obj_get out f = obj_get out0 f)).
