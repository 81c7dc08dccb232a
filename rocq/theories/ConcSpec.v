(** * ConcSpec: words for claims about concurrent calls. *)
From Verif Require Import Base Time Parsers Engine EngineHist Conc.

(** The threads: thread [i] is the call of ln_normalize with the [i]-th message and object,
    all on the context [cx]. *)
Definition calls (fuel : nat) (e : env) (cx : ctx) (reqs : list (text * fields)) : list (prog (bool * fields)) :=
  map (fun q => normalizeP e (fst q) fuel (c_root cx) (snd q)) reqs.

(** The call made alone, on a context nobody else uses, returns [a] (success?, event). *)
Definition alone (fuel : nat) (e : env) (cx : ctx) (msg : text) (js : fields) (a : bool * fields) : Prop :=
  exists cx', normalize fuel e cx msg js = EOk (fst a, snd a, cx').

(** What has become of thread [i]. *)
Definition returned {A} (ts : list (prog A)) (i : nat) (a : A) : Prop := nth_error ts i = Some (PRet a).
Definition crashed {A} (ts : list (prog A)) (i : nat) (u : ub) : Prop := nth_error ts i = Some (PUb u).
Definition finished {A} (ts : list (prog A)) (i : nat) : Prop := (exists a, returned ts i a) \/ (exists u, crashed ts i u).

(** How many turns a schedule gives to thread [i]. *)
Definition turns (sched : list nat) (i : nat) : nat := count_occ Nat.eq_dec sched i.
