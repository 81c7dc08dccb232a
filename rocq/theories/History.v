(** * History: everything a program can do with a context between ln_initCtx and ln_exitCtx. *)
From Verif Require Import Base Parsers Engine Pdag Samp GraphSpec.
From Coq Require Import Permutation.

(** What is known about qsort(3): it permutes. *)
Definition permutes (q : list prs -> list prs) : Prop := forall l, Permutation (q l) l.

Inductive history (e : env) (q : list prs -> list prs) : ctx -> Prop :=
| h_init : forall o, history e q (initCtx o)
| h_load : forall cx fuel file cx' ok, history e q cx -> loadFile e q fuel cx file = EOk (cx', ok) -> history e q cx'
| h_string : forall cx fuel s cx' ok, history e q cx -> loadString e q fuel cx s = EOk (cx', ok) -> history e q cx'
| h_normalize : forall cx fuel msg js ok o cx', history e q cx -> normalize fuel e cx msg js = EOk (ok, o, cx') -> history e q cx'.
