(** * Prop_V1Trap: C95 -- what can go wrong when a rulebase without "version=2" is loaded. *)
From Verif Require Import Base BaseFacts Parsers Engine Pdag Samp LineSpec AnnotSpec V1 V1Spec V1LoadSpec V1Load V1Top V1TrapSpec V1Trap TestEnv LoadSpec LoadTop2 LoadTop Prop_Load Prop_V1.
From Coq Require Import String.
Local Open Scope list_scope.

Lemma v1_load_eq e q fuel lc0 f t : files e f = Some t -> t <> [] -> (forall u, t <> L "version=2" ++ LF :: u) -> no_v2 lc0 ->
  l_loadFile e q fuel lc0 f = (do* lc := v1_lines e fuel (S (List.length t)) {| l_ctx := set_version (l_ctx lc0) 1; l_tree := vnew |} t in EOk (lc, true)).
Proof.
  intros HF Ht HV H. unfold l_loadFile. rewrite HF. destruct t as [|c t]; [congruence|]. rewrite (version_v1 _ HV).
  replace (N.eqb (c_version (l_ctx lc0)) 0 || N.eqb (c_version (l_ctx lc0)) 1)%bool with true by (destruct H as [-> | ->]; reflexivity). reflexivity.
Qed.

Lemma long_enough t n ls fuel : rulebase true t n ls -> List.length t < fuel -> Forall (fun l => List.length (fst l) < fuel) ls.
Proof.
  assert (X : forall w, List.length (one_line w) <= List.length w) by (intros w; unfold one_line; induction w as [|c w IH]; cbn [filter List.length]; [lia|]; destruct (negb _); cbn [List.length]; lia).
  induction 1 as [n|t n ls H IH|x t n ls HX H IH|x n HX|w t n ls HW HI HF H IH|w n HW HF]; intros Hf; try constructor.
  - apply IH. cbn [List.length] in Hf. lia.
  - apply IH. cbn [List.length] in Hf. rewrite app_length in Hf. cbn [List.length] in Hf. lia.
  - cbn [fst]. specialize (X w). rewrite app_length in Hf. lia.
  - apply IH. rewrite app_length in Hf. cbn [List.length] in Hf. lia.
  - cbn [fst]. specialize (X w). lia.
  - constructor.
Qed.

(** A file made up of lines, in any context that holds no v2 rulebase (with the prefix that
    earlier files left in force): loading it misbehaves exactly where the first bad line does. *)
Theorem C95_exactly : forall e fuel q lc0 f t n ls, files e f = Some t -> t <> [] -> (forall u, t <> L "version=2" ++ LF :: u) -> no_v2 lc0 ->
  rulebase true t n ls -> short_lines ls -> List.length t < fuel ->
  forall x, l_loadFile e q fuel lc0 f = EUb x <-> goes_wrong (c_prefix (l_ctx lc0)) ls x.
Proof.
  intros e fuel q lc0 f t n ls HF Ht HV H HR HS Hf x. rewrite (v1_load_eq e q fuel lc0 f t HF Ht HV H).
  rewrite (v1_lines_process e fuel t n ls) by (auto; lia).
  destruct (process_exact e fuel ls {| l_ctx := set_version (l_ctx lc0) 1; l_tree := vnew |} (long_enough _ _ _ _ HR Hf)) as [(y & Hg & -> & Hu)|[Hg (lc' & ->)]]; cbn [ebind].
  - change (c_prefix (l_ctx {| l_ctx := set_version (l_ctx lc0) 1; l_tree := vnew |})) with (c_prefix (l_ctx lc0)) in Hg, Hu. split; [intros E; injection E as <-; exact Hg|]. intros Hx. rewrite (Hu _ Hx). reflexivity.
  - split; [discriminate|]. intros Hx. destruct (Hg x Hx).
Qed.
Print Assumptions C95_exactly.

(** Without a bad line the file is loaded, faulty rules, unknown fields and lines of no known
    kind or not: loading reports success. *)
Theorem C95_else_success : forall e fuel q lc0 f t n ls, files e f = Some t -> t <> [] -> (forall u, t <> L "version=2" ++ LF :: u) -> no_v2 lc0 ->
  rulebase true t n ls -> short_lines ls -> List.length t < fuel -> (forall x, ~ goes_wrong (c_prefix (l_ctx lc0)) ls x) ->
  exists lc, l_loadFile e q fuel lc0 f = EOk (lc, true).
Proof.
  intros e fuel q lc0 f t n ls HF Ht HV H HR HS Hf Hg. pose proof (C95_exactly e fuel q lc0 f t n ls HF Ht HV H HR HS Hf) as HX.
  rewrite (v1_load_eq e q fuel lc0 f t HF Ht HV H) in *. destruct (v1_lines _ _ _ _ _) as [lc|x]; [exists lc; reflexivity|]. destruct (Hg x). apply HX. reflexivity.
Qed.
Print Assumptions C95_else_success.

(** Any file at all: if loading misbehaves, one of its lines is bad, with a prefix that lines
    of the file bring about. It ends in every other case. *)
Theorem C95_any_file : forall e fuel q lc0 f t, files e f = Some t -> t <> [] -> (forall u, t <> L "version=2" ++ LF :: u) -> no_v2 lc0 -> List.length t < fuel ->
  (exists lc, l_loadFile e q fuel lc0 f = EOk (lc, true)) \/
  (exists x l p, l_loadFile e q fuel lc0 f = EUb x /\ v1_line_of t l /\ prefix_from t (c_prefix (l_ctx lc0)) p /\ bad_line p l x).
Proof.
  intros e fuel q lc0 f t HF Ht HV H Hf. rewrite (v1_load_eq e q fuel lc0 f t HF Ht HV H).
  pose proof (v1_lines_any e fuel t (c_prefix (l_ctx lc0)) Hf (S (List.length t)) {| l_ctx := set_version (l_ctx lc0) 1; l_tree := vnew |} t) as HX.
  destruct (v1_lines _ _ _ _ _) as [lc|x]; [left; exists lc; reflexivity|right].
  destruct HX as (l & p & H1 & H2 & H3); [exists []; split; [reflexivity|left; reflexivity]|lia|constructor|]. exists x, l, p. auto.
Qed.
Print Assumptions C95_any_file.

(** ** Rulebases of literals *)
Definition contains (t w : text) : Prop := exists a b, t = a ++ w ++ b.
Lemma plain_v1_line t l : ~ In "%"%char t -> v1_line_of t l -> contains t l.
Proof.
  intros H1 (a & w & b & -> & _ & _ & -> & _ & HW). exists a, b. do 2 f_equal.
  assert (Hn : forall w1 w2, w <> w1 ++ LF :: w2).
  { intros w1 w2 E. specialize (HW _ _ E). rewrite (proj1 (count_occ_not_In ascii_dec w1 "%"%char)) in HW; [discriminate|].
    intros Hi. apply H1. apply in_or_app. right. apply in_or_app. left. rewrite E. apply in_or_app. auto. }
  clear - Hn. induction w as [|c w IH]; [reflexivity|]. cbn [filter]. destruct (ceq c LF) eqn:E.
  - apply ceq_true in E. subst c. destruct (Hn [] w eq_refl).
  - cbn [negb]. f_equal. apply IH. intros w1 w2 ->. exact (Hn (c :: w1) w2 eq_refl).
Qed.
Lemma in_part (t w : text) c : contains t w -> In c w -> In c t.
Proof. intros (a & b & ->) H. apply in_or_app. right. apply in_or_app. auto. Qed.
Lemma says_part l k u : line_says l k u -> contains l (L k) /\ contains l u.
Proof.
  intros [->|[-> ->]].
  - split; [exists [], ("="%char :: u); reflexivity|exists (L k ++ ["="%char]), []; rewrite <- app_assoc, app_nil_r; reflexivity].
  - split; [exists [], []; rewrite app_nil_r; reflexivity|exists (L k), []; rewrite app_nil_r; reflexivity].
Qed.
Lemma part_trans a b c : contains a b -> contains b c -> contains a c.
Proof. intros (x & y & ->) (u & v & ->). exists (x ++ u), (v ++ y). rewrite <- !app_assoc. reflexivity. Qed.
Lemma opens_percent r u : opens r u -> In "%"%char r.
Proof. intros [l c v _ _|l f r' v _ _ _ _]; apply in_or_app; right; left; reflexivity. Qed.

Theorem C95_plain_loads : forall e fuel q lc0 f t, files e f = Some t -> t <> [] -> (forall u, t <> L "version=2" ++ LF :: u) -> no_v2 lc0 -> List.length t < fuel ->
  ~ In "%"%char t -> ~ In ","%char t -> ~ contains t (L "extendprefix") -> ~ contains t (L "annotate") -> (forall p, c_prefix (l_ctx lc0) = Some p -> ~ In "%"%char p) ->
  exists lc, l_loadFile e q fuel lc0 f = EOk (lc, true).
Proof.
  intros e fuel q lc0 f t HF Ht HV H Hf N1 N2 N3 N4 N5. destruct (C95_any_file e fuel q lc0 f t HF Ht HV H Hf) as [HX|(x & l & p & _ & Hl & Hp & Hb)]; [exact HX|]. exfalso.
  assert (HP : forall p, prefix_from t (c_prefix (l_ctx lc0)) p -> forall q, p = Some q -> ~ In "%"%char q).
  { clear - N1 N3 N5. intros p Hp. induction Hp as [|p l p' Hp IH Hl Hb]; [exact N5|]. apply plain_v1_line in Hl; [|exact N1].
    destruct Hb as [u Hu|q u E Hu|_ _]; [|exfalso|exact IH]; apply says_part in Hu as [K1 K2].
    - intros q E. injection E as <-. intros Hi. apply N1. eapply in_part; [eapply part_trans; [exact Hl|exact K2]|exact Hi].
    - apply N3. eapply part_trans; eauto. }
  specialize (HP p Hp). apply plain_v1_line in Hl; [|exact N1].
  destruct Hb as [u _ Hu|a y Hu _ He|a s u Hu _ _ _ Ho _|tag b u s Hu _ _ _ _ _]; apply says_part in Hu as [K1 K2].
  - apply N3. eapply part_trans; eauto.
  - apply N2. eapply in_part; [eapply part_trans; [exact Hl|exact K2]|]. destruct He as (m & n & -> & _). apply in_or_app. left. apply in_or_app. right. left. reflexivity.
  - apply opens_percent in Ho. apply in_app_or in Ho as [Ho|Ho].
    + destruct p as [p|]; [exact (HP p eq_refl Ho)|destruct Ho].
    + apply N1. eapply in_part; [eapply part_trans; [exact Hl|exact K2]|]. apply in_or_app. right. right. exact Ho.
  - apply N4. eapply part_trans; eauto.
Qed.
Print Assumptions C95_plain_loads.

(** ** Each of the four occurs *)
Definition load_v (l : list string) : er bool := do* (_, ok) := l_loadFile (env_v (lines l)) isort 300 (l_init no_opts) (L "f") in EOk ok.
Theorem C95_bad_lines_occur :
  load_v ["extendprefix=x"]%string = EUb NullDeref /\ load_v ["rule=,a:b"]%string = EUb NullDeref /\ load_v ["rule=a,,b:c"]%string = EUb NullDeref /\
  load_v ["rule=:a %b"]%string = EUb UninitRead /\ load_v ["prefix=%a%b"; "rule=:c"]%string = EUb UninitRead /\ load_v ["rule=:%a:word%%b"]%string = EUb UninitRead /\
  load_v ["annotate=a:+b=""c"" "]%string = EUb OutOfFuel /\ load_v ["annotate=a: "]%string = EUb OutOfFuel.
Proof. vm_compute. auto 10. Qed.

(** Neighbours of these that do no harm. *)
Example C95_ex_good :
  load_v ["prefix="; "extendprefix=x"; "rule=a,:b"; "rule=a"; "rule=a,b"; "rule=:a %%b"; "rule=:%a:word%%%"; "rule=:%a:nosuch% %b%"; "rule=:%a:word:b%";
    "annotate=a:+b=""c"""; "annotate=a:+b=""c "; "annotate=a "; "annotate=a:b "; "include="; "type=@a:%b%c"]%string = EOk true.
Proof. vm_compute. reflexivity. Qed.
Example C95_ex_good_ends : load_v ["rule=:a %"]%string = EOk true /\ load_v ["rule=:a %  "]%string = EOk true /\ load_v ["rule=:%a:word:x"]%string = EOk true /\ load_v ["rule=:%a:wor"]%string = EOk true.
Proof. vm_compute. auto. Qed.

(** The hypotheses of C95_exactly are met, with a bad line in the third place. *)
Definition items95 : list item := [Line (L "prefix=p "); Comment (L " x"); Line (L "rule=t:a %b:word%"); Line (L "rule=:c %d%e"); Line (L "extendprefix=x")].
Definition text95 : text := write items95.
Example C95_ex : exists ls, rulebase true text95 0 ls /\ short_lines ls /\ goes_wrong None ls UninitRead /\ forall x, goes_wrong None ls x -> x = UninitRead.
Proof.
  exists (numbered 0 items95). assert (HR : rulebase true text95 0 (numbered 0 items95)) by (apply numbered_file; reflexivity).
  assert (HS : short_lines (numbered 0 items95)) by (repeat constructor).
  split; [exact HR|]. split; [exact HS|].
  assert (E : l_loadFile (env_v text95) isort 300 (l_init no_opts) (L "f") = EUb UninitRead) by (vm_compute; reflexivity).
  assert (HX : forall x, l_loadFile (env_v text95) isort 300 (l_init no_opts) (L "f") = EUb x <-> goes_wrong None (numbered 0 items95) x).
  { intros x. apply (C95_exactly (env_v text95) 300 isort (l_init no_opts) (L "f") text95 0 (numbered 0 items95)); auto; [discriminate|discriminate|left; reflexivity|]. apply Nat.ltb_lt. vm_compute. reflexivity. }
  split; [apply HX; exact E|]. intros x Hx. apply HX in Hx. rewrite E in Hx. injection Hx as <-. reflexivity.
Qed.
