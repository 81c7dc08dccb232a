(** * Own: the JSON objects of ln_normalize and their reference counts.
    The engine of [Engine.v] once more, working on a heap of libfastjson objects instead of
    on values. Proof-free. *)
From Verif Require Import Base Time Parsers Engine.

(** ** libfastjson objects: a reference count and references to members (NULL = None). *)
Inductive jcell : Type :=
| CLeaf (v : json)                            (* string, number, boolean *)
| CObj (ms : list (text * option nat))
| CArr (xs : list (option nat)).
Record jobj : Type := { j_rc : nat; j_cell : jcell }.
(** [None] = freed. *)
Definition jheap := list (option jobj).

Definition opt_list (x : option nat) : list nat := match x with Some i => [i] | None => [] end.
Definition children (c : jcell) : list nat :=
  match c with
  | CLeaf _ => []
  | CObj ms => flat_map (fun kv => opt_list (snd kv)) ms
  | CArr xs => flat_map opt_list xs
  end.

Definition jget (h : jheap) (x : nat) : er jobj :=
  match nth_error h x with Some (Some o) => EOk o | _ => EUb UseAfterFree end.
Definition jset (h : jheap) (x : nat) (o : option jobj) : jheap := upd_nth h x (fun _ => o).

(** json_object_new_*: count 1, owned by the caller. *)
Definition jalloc (h : jheap) (c : jcell) : nat * jheap :=
  (List.length h, h ++ [Some {| j_rc := 1; j_cell := c |}]).
(** json_object_get (NULL is allowed) *)
Definition jref (h : jheap) (x : option nat) : er jheap :=
  match x with
  | None => EOk h
  | Some i => do* o := jget h i in EOk (jset h i (Some {| j_rc := S (j_rc o); j_cell := j_cell o |}))
  end.
(** json_object_put: one reference less; at zero the object is freed and gives up its
    members, depth first. [work]: references still to be given up. *)
Fixpoint jputs (fuel : nat) (h : jheap) (work : list nat) : er jheap :=
  match work with
  | [] => EOk h
  | i :: w =>
      match fuel with
      | O => EUb OutOfFuel
      | S f =>
          do* o := jget h i in
          if Nat.leb (j_rc o) 1 then jputs f (jset h i None) (children (j_cell o) ++ w)
          else jputs f (jset h i (Some {| j_rc := pred (j_rc o); j_cell := j_cell o |})) w
      end
  end.
(** Every step gives up one counted reference. *)
Definition total_rc (h : jheap) : nat :=
  list_sum (map (fun s => match s with Some o => j_rc o | None => 0 end) h).
Definition jput (h : jheap) (x : option nat) : er jheap := jputs (S (total_rc h)) h (opt_list x).

(** json_object_object_add: a member of the same name is replaced and given up. *)
Fixpoint set_member (ms : list (text * option nat)) (k : text) (v : option nat)
  : list (text * option nat) * option (option nat) :=
  match ms with
  | [] => ([(k, v)], None)
  | (k', v') :: ms' =>
      if text_eqb k' k then ((k', v) :: ms', Some v')
      else let (r, old) := set_member ms' k v in ((k', v') :: r, old)
  end.
Definition jadd (h : jheap) (j : option nat) (k : text) (v : option nat) : er jheap :=
  match j with
  | None => EUb NullDeref
  | Some i =>
      do* o := jget h i in
      match j_cell o with
      | CObj ms =>
          let (ms', old) := set_member ms k v in
          let h := jset h i (Some {| j_rc := j_rc o; j_cell := CObj ms' |}) in
          jput h (match old with Some x => x | None => None end)
      | _ => EUb AssertFail
      end
  end.
(** json_object_object_add_ex with JSON_C_OBJECT_ADD_KEY_IS_NEW: appended without looking. *)
Definition jadd_new (h : jheap) (j : option nat) (k : text) (v : option nat) : er jheap :=
  match j with
  | None => EUb NullDeref
  | Some i =>
      do* o := jget h i in
      match j_cell o with
      | CObj ms => EOk (jset h i (Some {| j_rc := j_rc o; j_cell := CObj (ms ++ [(k, v)]) |}))
      | _ => EUb AssertFail
      end
  end.
(** json_object_array_add *)
Definition jpush (h : jheap) (a : nat) (v : option nat) : er jheap :=
  do* o := jget h a in
  match j_cell o with
  | CArr xs => EOk (jset h a (Some {| j_rc := j_rc o; j_cell := CArr (xs ++ [v]) |}))
  | _ => EUb AssertFail
  end.

(** The object a field parser builds for a value (all its parts fresh; on failure the
    parsers of parser.c have given up what they had begun: 1884-1888, 2320-2324, 2566-2567,
    3049-3052, 3137-3140). A value JNull is no object at all. *)
Fixpoint jnew (v : json) (h : jheap) : option nat * jheap :=
  match v with
  | JNull => (None, h)
  | JArr l =>
      let (xs, h1) := (fix go l h := match l with
                       | [] => ([], h)
                       | a :: l' => let (x, h1) := jnew a h in let (xs, h2) := go l' h1 in (x :: xs, h2)
                       end) l h in
      let (i, h2) := jalloc h1 (CArr xs) in (Some i, h2)
  | JObj l =>
      let (ms, h1) := (fix go l h := match l with
                       | [] => ([], h)
                       | (k, a) :: l' => let (x, h1) := jnew a h in let (ms, h2) := go l' h1 in ((k, x) :: ms, h2)
                       end) l h in
      let (i, h2) := jalloc h1 (CObj ms) in (Some i, h2)
  | _ => let (i, h1) := jalloc h (CLeaf v) in (Some i, h1)
  end.

(** ** The engine *)

(** State of [ln_normalizeRec]: npb->parsedTo, *endNode, npb->rule, the JSON heap; and, for
    the record only, the references the code drops without giving them up ([q_lost]). *)
Record hst : Type := { q_pt : nat; q_end : option nat; q_rule : text; q_h : jheap; q_lost : list nat }.
Definition q_set_pt (s : hst) v := {| q_pt := v; q_end := q_end s; q_rule := q_rule s; q_h := q_h s; q_lost := q_lost s |}.
Definition q_set_end (s : hst) v := {| q_pt := q_pt s; q_end := v; q_rule := q_rule s; q_h := q_h s; q_lost := q_lost s |}.
Definition q_set_rule (s : hst) v := {| q_pt := q_pt s; q_end := q_end s; q_rule := v; q_h := q_h s; q_lost := q_lost s |}.
Definition q_set_h (s : hst) v := {| q_pt := q_pt s; q_end := q_end s; q_rule := q_rule s; q_h := v; q_lost := q_lost s |}.
Definition q_set_lost (s : hst) v := {| q_pt := q_pt s; q_end := q_end s; q_rule := q_rule s; q_h := q_h s; q_lost := v |}.

(** The members of an object; other types have none. json_object_get_type of NULL is null. *)
Definition members (h : jheap) (v : option nat) : er (option (list (text * option nat))) :=
  match v with
  | None => EOk None
  | Some i => do* o := jget h i in EOk (match j_cell o with CObj ms => Some ms | _ => None end)
  end.

(** pdag.c 1336-1345: the members of the value go to the event as well. *)
Fixpoint share_members (h : jheap) (j : option nat) (ms : list (text * option nat)) : er jheap :=
  match ms with
  | [] => EOk h
  | (k, x) :: ms' =>
      do* h1 := jref h x in
      do* h2 := jadd h1 j k x in
      share_members h2 j ms'
  end.

(** pdag.c 1322-1391 [fixJSON] *)
Definition fixJSONH (p : prs) (v : option nat) (j : option nat) (h : jheap) : er jheap :=
  match p_name p with
  | None => jput h v
  | Some nm =>
      do* m := members h v in
      if text_eqb nm (L ".") then
        match m with
        | Some ms => do* h1 := share_members h j ms in jput h1 v
        | None => jadd_new h j nm v
        end
      else
        match m with
        | Some [(k, x)] =>
            if text_eqb k (L "..") then
              do* h1 := jref h x in
              do* h2 := jput h1 v in
              jadd_new h2 j nm x
            else jadd_new h j nm v
        | _ => jadd_new h j nm v
        end
  end.

(** parser.c 3255-3266: look for a member named "."; every one found is referenced, the last
    one is taken. Result: what to add, the heap, references forgotten. *)
Fixpoint pick_dot (h : jheap) (pv : nat) (ms : list (text * option nat)) (toAdd : option nat) (lost : list nat)
  : er (option nat * jheap * list nat) :=
  match ms with
  | [] => EOk (toAdd, h, lost)
  | (k, x) :: ms' =>
      if text_eqb k (L ".") then
        do* h1 := jref h x in
        let lost := match toAdd with
                    | Some y => if Nat.eqb y pv then lost else y :: lost
                    | None => lost end in
        pick_dot h1 pv ms' x lost
      else pick_dot h pv ms' toAdd lost
  end.

Section NormalizeH.
Variable e : env.
Variable cx : ctx.
Variable msg : text.

(** A wild node (excluded by C38) is kept apart from misuse of a JSON object. *)
Definition nodeH (i : nat) : er node := match get_node (c_nodes cx) i with EOk n => EOk n | EUb _ => EUb OobIndex end.

Section StepH.
(** [rec node offs partial json state] *)
Variable rec : nat -> nat -> bool -> option nat -> hst -> er (bool * hst).

(** parser.c 3215-3295 [ln_v2_parseRepeat]; the result is the position and json_arr. *)
Fixpoint repeat_loopH (fuel : nat) (pn wn : nat) (permit : bool) (strt lkg : nat)
  (arr : option nat) (s : hst) : er (option (nat * option nat) * hst) :=
  match fuel with
  | O => EUb OutOfFuel
  | S f =>
      let (pv, h0) := jalloc (q_h s) (CObj []) in
      do* (ok, s1) := rec pn strt true (Some pv) (q_set_end (q_set_h s h0) None) in
      if negb ok then
        do* h1 := jput (q_h s1) (Some pv) in
        if permit then EOk (Some (lkg, arr), q_set_h s1 h1)
        else (do* h2 := jput h1 arr in EOk (None, q_set_h s1 h2))
      else
        let strt := q_pt s1 in
        let (ar, h1) := match arr with Some a => (a, q_h s1) | None => jalloc (q_h s1) (CArr []) end in
        do* m := members h1 (Some pv) in
        do* (toAdd, h2, lost) := pick_dot h1 pv (match m with Some ms => ms | None => [] end) (Some pv) (q_lost s1) in
        do* h3 := jpush h2 ar toAdd in
        do* h4 := match toAdd with
                  | Some y => if Nat.eqb y pv then EOk h3 else jput h3 (Some pv)
                  | None => jput h3 (Some pv)
                  end in
        do* (ok, s2) := rec wn strt true None (q_set_end (q_set_pt (q_set_lost (q_set_h s1 h4) lost) 0) None) in
        if ok then repeat_loopH f pn wn permit (q_pt s2) strt (Some ar) s2
        else EOk (Some (strt, Some ar), s2)
  end.

(** pdag.c 1395-1470 [tryParser] with value == NULL on entry (pdag.c 1572): the value
    object of a user-defined type is made first (1438-1439) and, if the type does not match,
    nobody gives it up (1574: only localR == 0 is looked at; 1572: the pointer is
    overwritten). *)
Definition tryParserH (rf : nat) (p : prs) (offs : nat) (s : hst)
  : er (option (nat * option nat) * hst) :=
  let restore s' := q_set_end (q_set_pt s' (q_pt s)) (q_end s) in
  let want := match p_name p with Some _ => true | None => false end in
  match p_kind p with
  | KCustom ti =>
      match nth_error (c_types cx) ti with
      | None => EUb OobIndex
      | Some (_, tn) =>
          let (v, h0) := jalloc (q_h s) (CObj []) in
          do* (ok, s1) := rec tn offs true (Some v) (q_set_end (q_set_h s h0) None) in
          if ok then EOk (Some (q_pt s1, Some v), restore s1)
          else EOk (None, restore (q_set_lost s1 (v :: q_lost s1)))
      end
  | KRepeat pn wn permit =>
      do* (o, s1) := repeat_loopH rf pn wn permit offs offs None s in
      match o with
      | None => EOk (None, restore s1)
      | Some (pos, arr) =>
          if want then EOk (Some (pos, arr), restore s1)
          else do* h1 := jput (q_h s1) arr in EOk (Some (pos, None), restore (q_set_h s1 h1))
      end
  | KSimple m =>
      if Nat.ltb (List.length msg) offs then EUb OobOffset
      else match run_motif e m want offs (skipn offs msg) with
           | Ok (n, v) =>
               let (x, h1) := if want then jnew v (q_h s) else (None, q_h s) in
               EOk (Some (offs + n, x), q_set_h s h1)
           | Bad _ => EOk (None, s)
           (* (no field parser frees anything; the label is kept for JSON objects) *)
           | Ub u => EUb (match u with UseAfterFree => OobRead | u => u end)
           end
  end.

(** pdag.c 1560-1605 *)
Fixpoint parser_loopH (rf : nat) (nd : nat) (ps : list prs) (offs : nat) (partial : bool)
  (lpt : nat) (j : option nat) (s : hst) : er (bool * hst) :=
  match ps with
  | [] => EOk (false, s)
  | p :: ps' =>
      do* (o, s1) := tryParserH rf p offs s in
      match o with
      | None => parser_loopH rf nd ps' offs partial lpt j (q_set_pt s1 (Nat.max (q_pt s1) lpt))
      | Some (pos, v) =>
          do* (ok, s2) := rec (p_child p) pos partial j s1 in
          if ok then
            do* h1 := fixJSONH p v j (q_h s2) in
            let s3 := q_set_h s2 h1 in
            let s3 := if opt_rule (c_opts cx) then q_set_rule s3 (q_rule s3 ++ mockup_of p) else s3 in
            EOk (true, q_set_pt s3 (Nat.max (q_pt s3) pos))
          else
            do* h1 := jput (q_h s2) v in
            parser_loopH rf nd ps' offs partial pos j (q_set_pt (q_set_h s2 h1) (Nat.max (q_pt s2) pos))
      end
  end.

Definition norm_stepH (rf : nat) (nd offs : nat) (partial : bool) (j : option nat) (s : hst) : er (bool * hst) :=
  do* n := nodeH nd in
  do* (ok, s1) := parser_loopH rf nd (n_parsers n) offs partial (q_pt s) j s in
  if (n_term n && (Nat.eqb offs (List.length msg) || partial))%bool
  then EOk (true, q_set_end s1 (Some nd))
  else EOk (ok, s1).
End StepH.

(** pdag.c 1533-1620 [ln_normalizeRec] *)
Fixpoint normalizeRecH (fuel : nat) (nd offs : nat) (partial : bool) (j : option nat) (s : hst)
  : er (bool * hst) :=
  match fuel with
  | O => EUb OutOfFuel
  | S f => norm_stepH (normalizeRecH f) f nd offs partial j s
  end.

(** A new string under a name. *)
Definition add_leaf (h : jheap) (j : nat) (k : text) (v : json) : er jheap :=
  let (x, h1) := jalloc h (CLeaf v) in jadd h1 (Some j) k (Some x).

(** annot.c 187-239 [ln_annotate] *)
Fixpoint annot_opsH (ops : list aop) (j : nat) (h : jheap) : er jheap :=
  match ops with
  | [] => EOk h
  | AopAdd (Some n) (Some v) :: ops' => do* h1 := add_leaf h j (cstr n) (JStr (cstr v)) in annot_opsH ops' j h1
  | AopAdd _ _ :: _ => EUb NullDeref
  | AopRm _ :: ops' => annot_opsH ops' j h
  end.
Fixpoint annotate_tagsH (as_ : list annot) (tags : list text) (j : nat) (h : jheap) : er jheap :=
  match tags with
  | [] => EOk h
  | t :: ts =>
      do* h1 := match findAnnot as_ t with None => EOk h | Some ops => annot_opsH ops j h end in
      annotate_tagsH as_ ts j h1
  end.
Definition annotateH (as_ : list annot) (tags : json) (j : nat) (h : jheap) : er jheap :=
  match as_ with
  | [] => EOk h
  | _ => annotate_tagsH as_ (rev (tag_texts tags)) j h
  end.

(** pdag.c 1236-1261, 1296-1298 [addRuleMetadata] *)
Definition add_metadataH (n : node) (rule : text) (j : nat) (h : jheap) : er jheap :=
  do* (mr, h) := if opt_rule (c_opts cx) then
              match filter (fun c => negb (ceq c NUL)) rule with
              | [] => EUb OobWrite
              | r => let (mr, h1) := jalloc h (CObj []) in
                     do* h2 := add_leaf h1 mr (L "mockup") (JStr (rev r)) in
                     EOk (Some mr, h2)
              end
            else EOk (None, h) in
  do* (mr, h) := if opt_loc (c_opts cx) then
              match n_file n with
              | None => EUb NullDeref
              | Some f =>
                  let (mr, h1) := match mr with Some x => (x, h) | None => jalloc h (CObj []) end in
                  let (lo, h2) := jalloc h1 (CObj []) in
                  do* h3 := add_leaf h2 lo (L "file") (JStr (cstr f)) in
                  do* h4 := add_leaf h3 lo (L "line") (JInt (wrap 32 (Z.of_N (n_line n)))) in
                  do* h5 := jadd h4 (Some mr) (L "location") (Some lo) in
                  EOk (Some mr, h5)
              end
            else EOk (mr, h) in
  match mr with
  | None => EOk h
  | Some mr =>
      let (me, h1) := jalloc h (CObj []) in
      do* h2 := jadd h1 (Some me) (L "rule") (Some mr) in
      jadd h2 (Some j) (L "metadata") (Some me)
  end.

(** pdag.c 1621-1718 [ln_normalize]: [ev] is the caller's object, [tg] says which object is
    the tags array of a node. Result: success?, the heap, the references lost. *)
Definition normalizeH (fuel : nat) (tg : nat -> option nat) (ev : nat) (h : jheap) : er (bool * jheap * list nat) :=
  do* (ok, s) := normalizeRecH fuel (c_root cx) 0 false (Some ev)
       {| q_pt := 0; q_end := None; q_rule := []; q_h := h; q_lost := [] |} in
  if ok then
    match q_end s with
    | None => EUb NullDeref
    | Some en =>
        do* n := nodeH en in
        do* h1 := match n_tags n with
                  | None => EOk (q_h s)
                  | Some tags =>
                      do* h1 := jref (q_h s) (tg en) in
                      do* h2 := jadd h1 (Some ev) (L "event.tags") (tg en) in
                      annotateH (c_annots cx) tags ev h2
                  end in
        do* h2 := if opt_orig (c_opts cx) then add_leaf h1 ev (L "originalmsg") (JStr msg) else EOk h1 in
        do* h3 := add_metadataH n (q_rule s) ev h2 in
        EOk (true, h3, q_lost s)
    end
  else if Nat.ltb (List.length msg) (q_pt s) then EUb OobRead
  else
    do* h1 := add_leaf (q_h s) ev (L "originalmsg") (JStr msg) in
    do* h2 := add_leaf h1 ev (L "unparsed-data") (JStr (cstr (skipn (q_pt s) msg))) in
    EOk (false, h2, q_lost s).
End NormalizeH.
