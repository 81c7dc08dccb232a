(** * TestEnv: a concrete environment, used only for examples and witnesses.
    The JSON reader below is a small stand-in for libfastjson's tokener (objects, arrays,
    strings with the escapes quote and backslash, integers, true/false/null). *)
From Verif Require Import Base Time Parsers Engine Pdag Samp.

Definition ws (t : text) : text := skipn (scan isspace t) t.

Fixpoint jstr (fuel : nat) (t : text) (acc : text) : option (text * text) :=
  match fuel with
  | O => None
  | S f =>
      match t with
      | [] => None
      | c :: t' => if ceq c """" then Some (rev acc, t')
                   else if ceq c "\" then
                     match t' with d :: t'' => jstr f t'' (d :: acc) | [] => None end
                   else jstr f t' (c :: acc)
      end
  end.

Fixpoint digits (t : text) (v : Z) : Z * text :=
  match t with
  | c :: t' => if isdigit c then digits t' (v * 10 + dval c)%Z else (v, t)
  | [] => (v, t)
  end.

Definition starts (p : string) (t : text) : bool := text_eqb (firstn (List.length (L p)) t) (L p).

Fixpoint jval (fuel : nat) (t : text) : option (json * text) :=
  match fuel with
  | O => None
  | S f =>
      let t := ws t in
      match t with
      | [] => None
      | c :: t' =>
          if ceq c """" then
            match jstr f t' [] with Some (s, u) => Some (JStr s, u) | None => None end
          else if isdigit c then let '(v, u) := digits t 0 in Some (JInt v, u)
          else if ceq c "-" then let '(v, u) := digits t' 0 in Some (JInt (- v), u)
          else if starts "true" t then Some (JBool true, skipn 4 t)
          else if starts "false" t then Some (JBool false, skipn 5 t)
          else if starts "null" t then Some (JNull, skipn 4 t)
          else if ceq c "[" then
            match ws t' with
            | "]"%char :: u => Some (JArr [], u)
            | _ => (fix arr g (t : text) acc :=
                      match g with
                      | O => None
                      | S g' => match jval f t with
                                | None => None
                                | Some (v, u) =>
                                    match ws u with
                                    | d :: u' => if ceq d "," then arr g' u' (acc ++ [v])
                                                 else if ceq d "]" then Some (JArr (acc ++ [v]), u')
                                                 else None
                                    | [] => None
                                    end
                                end
                      end) f t' []
            end
          else if ceq c "{" then
            match ws t' with
            | "}"%char :: u => Some (JObj [], u)
            | _ => (fix obj g (t : text) acc :=
                      match g with
                      | O => None
                      | S g' =>
                          match ws t with
                          | q :: t1 =>
                              if negb (ceq q """") then None else
                              match jstr f t1 [] with
                              | None => None
                              | Some (k, u) =>
                                  match ws u with
                                  | col :: u1 =>
                                      if negb (ceq col ":") then None else
                                      match jval f u1 with
                                      | None => None
                                      | Some (v, u) =>
                                          match ws u with
                                          | d :: u' => if ceq d "," then obj g' u' (obj_add acc k v)
                                                       else if ceq d "}" then Some (JObj (obj_add acc k v), u')
                                                       else None
                                          | [] => None
                                          end
                                      end
                                  | [] => None
                                  end
                              end
                          | [] => None
                          end
                      end) f t' []
            end
          else None
      end
  end.

Definition tok0 (t : text) : option (json * nat) :=
  match jval (S (List.length t)) t with
  | Some (j, u) => Some (j, List.length t - List.length u)
  | None => None
  end.

Definition env0 : env :=
  {| wraps := false; asserts_on := true; char_signed := true; cur_year := 2026;
     json_tok := tok0; json_show := fun _ => []; json_num := fun _ => 0%Z;
     json_erroff := fun _ => 0; unescape := fun t => t; files := fun _ => None |}.

(** Insertion sort by the comparator of the code: a stable qsort. *)
Fixpoint insert_prs (p : prs) (l : list prs) : list prs :=
  match l with
  | [] => [p]
  | q :: l' => if Z.leb (parserCmp p q) 0 then p :: l else q :: insert_prs p l'
  end.
Definition isort (l : list prs) : list prs := fold_right insert_prs [] l.

Definition no_opts : opts := {| opt_orig := false; opt_rule := false; opt_loc := false |}.

Definition nl : text := [chr 10].
Definition lines (l : list string) : text := flat_map (fun s => L s ++ nl) l.

(** Load a rulebase from a string into a fresh context. *)
Definition load0 (o : opts) (l : list string) : er (ctx * bool) :=
  loadString env0 isort 200 (initCtx o) (lines l).

(** Load and normalize one message. *)
Definition run0 (o : opts) (l : list string) (m : string) : er (bool * fields) :=
  do* (cx, _) := load0 o l in
  do* (ok, f, _) := normalize 100 env0 cx (L m) [] in EOk (ok, f).

(** Readable results. *)
Definition S_ (t : text) : string := string_of_list_ascii t.
