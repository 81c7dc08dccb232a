(** * QuietSpec: histories in which no error was reported (a specification). *)
From Verif Require Import Base Parsers Engine Pdag Samp Err.

(** A context that was created, filled by loads - successful or not - each of which has made
    no error message, and used for messages. *)
Inductive quiet (e : env) (badint : json -> bool) (q : list prs -> list prs) : ctx -> Prop :=
| q_init : forall o, quiet e badint q (initCtx o)
| q_file : forall cx fuel file cx' ok, quiet e badint q cx -> loadFile e q fuel cx file = EOk (cx', ok) -> m_loadFile e badint q fuel cx file = [] -> quiet e badint q cx'
| q_string : forall cx fuel s cx' ok, quiet e badint q cx -> loadString e q fuel cx s = EOk (cx', ok) -> m_loadString e badint q fuel cx s = [] -> quiet e badint q cx'
| q_normalize : forall cx fuel msg js ok o cx', quiet e badint q cx -> normalize fuel e cx msg js = EOk (ok, o, cx') -> quiet e badint q cx'.
