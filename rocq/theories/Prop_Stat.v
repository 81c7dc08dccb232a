(** * C83, C84, C85: pictures, statistics and identifiers of a rulebase. *)
From Coq Require Import Permutation.
From Verif Require Import Base BaseFacts Time Parsers Engine Pdag Samp GraphSpec RuleSpec History HeapFacts BuildFacts OptFacts LoadFacts Prop_Graph Stat StatSpec StatFacts StatFacts2 StatFacts3 StatFacts4 StatTop StatTree TestEnv.
Local Open Scope list_scope.

(** ** C83: the DOT graph *)
(** After any history the DOT file of a rulebase can be read back, and says of each node that
    can be reached from the root, and of each of its fields, what [shown] says, once. *)
Theorem C83_graph : forall e q cx addr vis, permutes q -> history e q cx -> data_complete (c_nodes cx) ->
  (forall i, Forall (fun c => id_char c = true) (addr i)) ->
  exists t vis' order stmts, dotGraph addr cx vis = EOk (t, vis') /\
    new_below (c_nodes cx) everything (c_root cx) [] order /\
    read_dot t = Some stmts /\
    Permutation stmts (map (shown (fun i => "l"%char :: addr i)) (flat_map (items_of (c_nodes cx) everything) order)).
Proof.
  intros e q cx addr vis HQ HH HD HA. pose proof (history_safe _ _ _ HQ HH) as HM.
  destruct (picture cx vis everything (dot_item addr) (shown (fun i => "l"%char :: addr i)) (dotGraph addr cx vis) HM HD) as (t & v & o & st & A1 & A2 & A3 & A4 & _).
  - intros x Hx. apply lexes_dot; auto.
  - unfold dotGraph, genDot. destruct (clearAll (c_nodes cx) vis (comps cx)) as [v0|u]; [|reflexivity]. cbn [ebind].
    rewrite (dot_trav (c_nodes cx) addr HD). destruct (trav (c_nodes cx) everything (heap_fuel (c_nodes cx)) v0 (c_root cx)) as [[it v]|u]; reflexivity.
  - exists t, v, o, st. auto.
Qed.
Print Assumptions C83_graph.
(** and the DOT file of its use what [shown_use] says of the nodes that were used *)
Theorem C83_usage_graph : forall e q cx addr vis, permutes q -> history e q cx -> data_complete (c_nodes cx) ->
  (forall i, Forall (fun c => id_char c = true) (addr i)) ->
  exists t vis' order stmts, fullStatsDOT addr cx vis = EOk (t, vis') /\
    new_below (c_nodes cx) (used (c_nodes cx)) (c_root cx) [] order /\
    read_dot t = Some stmts /\
    Permutation stmts (map (shown_use (fun i => "l"%char :: addr i)) (flat_map (items_of (c_nodes cx) (used (c_nodes cx))) order)).
Proof.
  intros e q cx addr vis HQ HH HD HA. pose proof (history_safe _ _ _ HQ HH) as HM. destruct (safe_good cx HM) as (rk & HG & _).
  destruct (picture cx vis (used (c_nodes cx)) (sdot_item addr) (shown_use (fun i => "l"%char :: addr i)) (fullStatsDOT addr cx vis) HM HD) as (t & v & o & st & A1 & A2 & A3 & A4 & _).
  - intros x Hx. apply lexes_sdot; auto.
  - unfold fullStatsDOT, statsDot. destruct (clearAll (c_nodes cx) vis (comps cx)) as [v0|u]; [|reflexivity]. cbn [ebind].
    rewrite (sdot_trav (c_nodes cx) rk HG addr HD). destruct (trav (c_nodes cx) (used (c_nodes cx)) (heap_fuel (c_nodes cx)) v0 (c_root cx)) as [[it v]|u]; reflexivity.
  - exists t, v, o, st. auto.
Qed.
Print Assumptions C83_usage_graph.

(** ** C84: statistics *)
Lemma comps_live cx rs : (forall i, In i (owners cx) -> exists n, live (c_nodes cx) i n) -> rs = comps cx -> forall r, In r rs -> exists n, live (c_nodes cx) r n.
Proof. intros H -> r Hr. apply H. apply comps_owners. exact Hr. Qed.
Theorem C84_statistics : forall e q cx ids vis, permutes q -> history e q cx ->
  not_below (c_nodes cx) (comps cx) vis ->
  exists parts main vis',
    fullPdagStats cx false ids vis =
      EOk (full_report (map fst (c_types cx)) (map (fun x => report (c_nodes cx) (fst x) (snd x)) parts) (report (c_nodes cx) (fst main) (snd main)), vis') /\
    List.length parts = List.length (c_types cx) /\
    counted (c_nodes cx) (map snd (c_types cx) ++ [c_root cx]) [] (parts ++ [main]).
Proof.
  intros e q cx ids vis HQ HH HV. pose proof (history_safe _ _ _ HQ HH) as HM. destruct (safe_good cx HM) as (rk & HG & HB & HO).
  destruct (type_parts (c_nodes cx) rk HG HB (comps cx) (comps_live cx _ HO eq_refl) ids (c_types cx) [] vis) with (rest := c_root cx) as (parts & main & v & v' & E1 & E2 & E3 & E4).
  - intros x Hx. unfold comps. apply in_or_app. left. apply in_map. exact Hx.
  - intros k i n p (r & Hr & HBe) Hi. exfalso. exact (HV i r Hi Hr HBe).
  - intros i (r & Hr & HBe). split; [intros Hi; exact (HV i r Hi Hr HBe)|intros []].
  - intros v seen HC HS. destruct (component_stats (c_nodes cx) rk HG HB (comps cx) (comps_live cx _ HO eq_refl) (c_root cx) seen v) as (o & k & s & v1 & F1 & A1 & A2 & A3 & A4 & A5 & A6 & A7); auto.
    { unfold comps. apply in_or_app. right. left. reflexivity. }
    exists (o, k). split; [econstructor; eauto; constructor|]. exists v1. unfold pdagStats. rewrite F1. cbn [ebind]. rewrite A1. reflexivity.
  - exists parts, main, v'. split; [|auto]. unfold fullPdagStats. rewrite E1. cbn [ebind]. rewrite E2. cbn [ebind]. unfold full_report.
    rewrite map_length. rewrite (flat_map_map' (fun nm => full_line (L "type: " ++ nm)) fst). reflexivity.
Qed.
Print Assumptions C84_statistics.

(** ** C85: identifiers *)
(** If nothing is shared, setting the identifiers gives each node the fields on the way to it. *)
Theorem C85_identifiers : forall e q cx, permutes q -> history e q cx -> data_complete (c_nodes cx) -> forest (c_nodes cx) (comps cx) ->
  exists ids, setAllIDs (c_nodes cx) [] (comps cx) = EOk ids /\
    forall r ps i, In r (comps cx) -> path (c_nodes cx) r ps i -> id_of ids i = Some (shown_path ps).
Proof.
  intros e q cx HQ HH HD (F1 & F2 & F3). pose proof (history_safe _ _ _ HQ HH) as HM. destruct (safe_good cx HM) as (rk & HG & HB & HO).
  assert (HL : forall r, In r (comps cx) -> exists n, live (c_nodes cx) r n) by (apply (comps_live cx); auto).
  clear HH HM HO. revert F1 F2 F3 HL. generalize (comps cx) as rs. intros rs F1 F2 F3 HL.
  assert (HX : forall l dn ids, rs = dn ++ l -> (forall r ps i, In r l -> path (c_nodes cx) r ps i -> id_of ids i = None) ->
    exists ids', setAllIDs (c_nodes cx) ids l = EOk ids' /\ (forall r ps i, In r l -> path (c_nodes cx) r ps i -> id_of ids' i = Some (shown_path ps)) /\
      forall i, (forall r ps, In r l -> ~ path (c_nodes cx) r ps i) -> id_of ids' i = id_of ids i).
  { induction l as [|r l IH]; intros dn ids HE HI.
    - exists ids. split; [reflexivity|]. split; [intros r ps i []|auto].
    - cbn [setAllIDs]. assert (Hr : In r rs) by (rewrite HE; apply in_or_app; right; left; auto). destruct (HL r Hr) as [n Hn].
      destruct (setIDs_ok (c_nodes cx) rk HG HD (heap_fuel (c_nodes cx)) ids r [] n Hn) as (ids1 & E1 & A1 & A2).
      { pose proof (HB _ _ Hn). unfold heap_fuel. lia. } { auto. } { intros ps i HP. apply (HI r ps i); [left; auto|auto]. }
      rewrite E1. cbn [ebind].
      assert (HA : forall r' ps i, In r' l -> path (c_nodes cx) r' ps i -> forall ps', ~ path (c_nodes cx) r ps' i).
      { intros r' ps i Hr' HP ps' HP'. assert (r = r').
        { apply (F3 r r' i); [exact Hr|rewrite HE; apply in_or_app; right; right; auto|exists ps'; apply kpath_path; auto|exists ps; apply kpath_path; auto]. }
        subst r'. rewrite HE in F2. apply NoDup_remove_2 in F2. apply F2. apply in_or_app. auto. }
      destruct (IH (dn ++ [r]) ids1) as (ids2 & E2 & B1 & B2).
      { rewrite <- app_assoc. exact HE. }
      { intros r' ps i Hr' HP. rewrite (A2 i (HA r' ps i Hr' HP)). apply (HI r' ps i); [right; auto|auto]. }
      exists ids2. split; [exact E2|]. split.
      + intros r' ps i [<-|Hr'] HP; [|eauto]. rewrite B2; [rewrite (A1 ps i HP); reflexivity|]. intros r' ps' Hr' HP'. exact (HA r' ps' i Hr' HP' ps HP).
      + intros i Hi. rewrite B2, A2; auto; [intros ps; apply Hi; left; auto|intros r' ps Hr'; apply Hi; right; auto]. }
  destruct (HX rs [] [] eq_refl) as (ids & E & A & _); [reflexivity|]. exists ids. auto.
Qed.
Print Assumptions C85_identifiers.
(** and the extended report lists each way that was used by its fields, with its counters *)
Theorem C85_usage : forall e q cx vis, permutes q -> history e q cx -> data_complete (c_nodes cx) -> forest (c_nodes cx) (comps cx) ->
  not_below (c_nodes cx) (comps cx) vis ->
  exists ids parts main vis', setAllIDs (c_nodes cx) [] (comps cx) = EOk ids /\
    fullPdagStats cx true ids vis =
      EOk (full_report (map fst (c_types cx)) (map (fun x => report (c_nodes cx) (fst (fst x)) (snd (fst x)) ++ usage_report (c_nodes cx) (snd x)) parts)
             (report (c_nodes cx) (fst (fst main)) (snd (fst main)) ++ usage_report (c_nodes cx) (snd main)), vis') /\
    Forall2 (fun r x => counted (c_nodes cx) [r] [] [fst x] /\ used_ways (c_nodes cx) r (snd x)) (map snd (c_types cx) ++ [c_root cx]) (parts ++ [main]) /\
    not_below (c_nodes cx) (comps cx) vis'.
Proof.
  intros e q cx vis HQ HH HD HF HV. destruct (C85_identifiers e q cx HQ HH HD HF) as (ids & EI & HI). pose proof (history_safe _ _ _ HQ HH) as HM. destruct (safe_good cx HM) as (rk & HG & HB & HO).
  assert (HC : forall r vis, In r (comps cx) -> not_below (c_nodes cx) (comps cx) vis -> exists x vis',
    pdagStats (c_nodes cx) true ids vis r = EOk (report (c_nodes cx) (fst (fst x)) (snd (fst x)) ++ usage_report (c_nodes cx) (snd x), vis') /\
    counted (c_nodes cx) [r] [] [fst x] /\ used_ways (c_nodes cx) r (snd x) /\ not_below (c_nodes cx) (comps cx) vis').
  { intros r v Hr Hv. destruct (component_ext (c_nodes cx) rk HG HB (comps cx) (comps_live cx _ HO eq_refl) ids r v Hr Hv) as (o & k & l & v' & E & A1 & A2 & A3 & A4).
    exists ((o, k), l), v'. cbn [fst snd]. split; [|split; [exact A1|split; [split; [apply A3; apply HF; auto|exact A2]|exact A4]]]. rewrite E. unfold usage_report. f_equal. f_equal. f_equal. do 3 f_equal.
    assert (HX : forall x, In x l -> uline (c_nodes cx) ids (snd x) = match nth_error (c_nodes cx) (snd x) with
       | Some (Some n) => full_line (decimal (Z.of_N (n_called n)) ++ L ", " ++ decimal (Z.of_N (n_backtracked n)) ++ L ", " ++ shown_path (fst x)) | _ => [] end).
    { intros [ps i] Hx. apply A2 in Hx as [Hx _]. cbn [fst snd]. unfold uline, usage_line. destruct (nth_error (c_nodes cx) i) as [[n|]|]; try reflexivity.
      rewrite (HI r ps i Hr); [|apply kpath_path; eapply kpath_every; eauto]. unfold full_line, eol, show_Z, decimal. rewrite <- !app_assoc. reflexivity. }
    clear -HX. induction l as [|x l IH]; [reflexivity|]. cbn [flat_map]. rewrite HX by (left; auto). f_equal. apply IH. intros y Hy. apply HX. right; auto. }
  assert (HT : forall ts v, (forall x, In x ts -> In (snd x) (comps cx)) -> not_below (c_nodes cx) (comps cx) v -> exists parts v',
    typeStats (c_nodes cx) true ids v ts = EOk (flat_map (fun x => [chr 10] ++ full_line (L "type PDAG: " ++ fst x) ++ full_line (L "----------") ++ snd x) (combine (map fst ts) (map (fun x => report (c_nodes cx) (fst (fst x)) (snd (fst x)) ++ usage_report (c_nodes cx) (snd x)) parts)), v') /\
    Forall2 (fun r x => counted (c_nodes cx) [r] [] [fst x] /\ used_ways (c_nodes cx) r (snd x)) (map snd ts) parts /\ not_below (c_nodes cx) (comps cx) v').
  { induction ts as [|[nm d] ts IH]; intros v Hts Hv; [exists [], v; split; [reflexivity|split; [constructor|auto]]|].
    destruct (HC d v (Hts (nm, d) (or_introl eq_refl)) Hv) as (x & v1 & E1 & B1 & B2 & B3). destruct (IH v1 (fun x Hx => Hts x (or_intror Hx)) B3) as (parts & v2 & E2 & B4 & B5).
    exists (x :: parts), v2. split; [|split; [constructor; auto|auto]]. cbn [typeStats]. rewrite E1. cbn [ebind]. rewrite E2. cbn [ebind]. cbn [map combine flat_map fst snd]. unfold line, full_line, eol. rewrite <- !app_assoc. reflexivity. }
  destruct (HT (c_types cx) vis) as (parts & v1 & E1 & B1 & B2); [intros x Hx; unfold comps; apply in_or_app; left; apply in_map; exact Hx|exact HV|].
  destruct (HC (c_root cx) v1) as (main & v2 & E2 & B3 & B4 & B5); [unfold comps; apply in_or_app; right; left; reflexivity|exact B2|].
  exists ids, parts, main, v2. split; [exact EI|]. split; [|split; [apply Forall2_app; auto|exact B5]].
  unfold fullPdagStats. rewrite E1. cbn [ebind]. rewrite E2. cbn [ebind]. unfold full_report. rewrite map_length. rewrite (flat_map_map' (fun nm => full_line (L "type: " ++ nm)) fst). reflexivity.
Qed.
Print Assumptions C85_usage.

(** ** Examples *)
Definition rb_stat : list string :=
  ["version=2"; "type=@hst:%name:alpha%"; "rule=in:ab %n:number%"; "rule=out:abc %h:@hst%:x%w:word%"; "rule=:""q\z"]%string.
Definition cx_of (l : list string) : ctx := match load0 no_opts l with EOk (c, _) => c | _ => initCtx no_opts end.
Lemma history_of l : (exists b, load0 no_opts l = EOk (cx_of l, b)) -> history env0 isort (cx_of l).
Proof. intros [b E]. eapply h_string; [apply h_init|]. exact E. Qed.
Lemma stat_loaded : exists b, load0 no_opts rb_stat = EOk (cx_of rb_stat, b).
Proof. eexists. vm_compute. reflexivity. Qed.
Definition cx_used : ctx := match normalize 2000 env0 (cx_of rb_stat) (L "ab 12") [] with EOk (_, _, c) => c | _ => cx_of rb_stat end.
Lemma used_norm : exists b o, normalize 2000 env0 (cx_of rb_stat) (L "ab 12") [] = EOk (b, o, cx_used).
Proof. eexists _, _. vm_compute. reflexivity. Qed.
Lemma used_history : history env0 isort cx_used.
Proof. destruct used_norm as (b & o & E). eapply h_normalize; [|exact E]. apply history_of. exact stat_loaded. Qed.
Definition no_data_missing (h : list (option node)) : bool :=
  forallb (fun o => match o with Some n => forallb (fun p => match p_kind p with KSimple (MNoData _) => false | _ => true end) (n_parsers n) | None => true end) h.
Lemma no_data_missing_ok h : no_data_missing h = true -> data_complete h.
Proof.
  intros H i n p ty Hi Hp HK. unfold no_data_missing in H. rewrite forallb_forall in H. specialize (H _ (nth_error_In _ _ Hi)). cbn in H.
  rewrite forallb_forall in H. specialize (H p Hp). rewrite HK in H. discriminate H.
Qed.
Lemma used_complete : data_complete (c_nodes cx_used).
Proof. apply no_data_missing_ok. vm_compute. reflexivity. Qed.
Definition hex (i : nat) : text := L "0x" ++ show_nat i.
Lemma hex_ids i : Forall (fun c => id_char c = true) (hex i).
Proof.
  unfold hex, show_nat. apply Forall_app. split; [repeat constructor|]. unfold DecimalString.NilZero.string_of_uint.
  assert (HX : forall u, Forall (fun c => id_char c = true) (L (DecimalString.NilEmpty.string_of_uint u))) by (induction u; cbn; constructor; auto).
  destruct (Nat.to_uint i); try apply HX. repeat constructor.
Qed.
(** the hypotheses are met, and the picture has nine nodes and eight fields *)
Example C83_graph_ex : exists t vis' stmts, dotGraph hex cx_used [] = EOk (t, vis') /\ read_dot t = Some stmts /\ List.length stmts = 17 /\
  In (L "l0x0", Some (L "l0x4"), [(L "label", L "literal:ab"); (L "style", L "dotted")]) stmts /\
  In (L "l0x6", None, [(L "label", L "1"); (L "style", L "bold")]) stmts.
Proof.
  destruct (C83_graph env0 isort cx_used hex [] isort_permutes used_history used_complete hex_ids) as (t & v & o & st & E & _ & R & _).
  exists t, v, st. split; [exact E|]. split; [exact R|].
  assert (HX : match dotGraph hex cx_used [] with EOk (t, _) => match read_dot t with Some st => (Nat.eqb (List.length st) 17 && existsb (fun x => match x with (a, Some b, [(c, d); _]) => text_eqb a (L "l0x0") && text_eqb b (L "l0x4") && text_eqb d (L "literal:ab") | _ => false end) st)%bool | None => false end | _ => false end = true) by (vm_compute; reflexivity).
  revert E R. vm_compute (dotGraph hex cx_used []). intros E. injection E as <- <-. intros R. vm_compute in R. injection R as <-. split; [reflexivity|]. split; cbn; auto 20.
Qed.
Example C83_usage_graph_ex : exists t vis' stmts, fullStatsDOT hex cx_used [] = EOk (t, vis') /\ read_dot t = Some stmts /\ List.length stmts = 7 /\
  In (L "l0x0", None, [(L "label", L "1:0")]) stmts.
Proof.
  destruct (C83_usage_graph env0 isort cx_used hex [] isort_permutes used_history used_complete hex_ids) as (t & v & o & st & E & _ & R & _).
  exists t, v, st. split; [exact E|]. split; [exact R|].
  revert E R. vm_compute (fullStatsDOT hex cx_used []). intros E. injection E as <- <-. intros R. vm_compute in R. injection R as <-. split; [reflexivity|]. cbn; auto 20.
Qed.
(** what identifiers need: it is enough that every node is referred to once *)
Theorem C85_unshared : forall e q cx, permutes q -> history e q cx -> (forall i n, live (c_nodes cx) i n -> n_refcnt n = 1%Z) -> forest (c_nodes cx) (comps cx).
Proof. intros e q cx HQ HH H1. apply refcount_forest; auto. eapply C38_any_history_safe; eauto. Qed.
Print Assumptions C85_unshared.
Definition ones_b (h : list (option node)) : bool := forallb (fun o => match o with Some n => Z.eqb (n_refcnt n) 1 | None => true end) h.
Lemma ones_ok h : ones_b h = true -> forall i n, live h i n -> n_refcnt n = 1%Z.
Proof. intros H i n Hi. unfold ones_b in H. rewrite forallb_forall in H. specialize (H _ (nth_error_In _ _ Hi)). cbn in H. apply Z.eqb_eq. exact H. Qed.
Lemma used_forest : forest (c_nodes cx_used) (comps cx_used).
Proof. apply (C85_unshared env0 isort); [exact isort_permutes|exact used_history|]. apply ones_ok. vm_compute. reflexivity. Qed.
Lemma nothing_flagged h rs : not_below h rs []. Proof. intros i r []. Qed.
Example C85_usage_ex : exists ids t vis', setAllIDs (c_nodes cx_used) [] (comps cx_used) = EOk ids /\ fullPdagStats cx_used true ids [] = EOk (t, vis') /\
  skipn (List.length t - 108) t = lines ["Usage Statistics:"; "-----------------"; "called, backtracked, rule"; "1, 0, "; "1, 0, ab"; "1, 0, ab "; "1, 0, ab %n:number%"]%string.
Proof.
  destruct (C85_usage env0 isort cx_used [] isort_permutes used_history used_complete used_forest (nothing_flagged _ _)) as (ids & parts & main & v & E1 & E2 & _).
  eexists ids, _, v. split; [exact E1|]. split; [exact E2|]. revert E1 E2. vm_compute (setAllIDs (c_nodes cx_used) [] (comps cx_used)). intros E1. injection E1 as <-.
  match goal with |- fullPdagStats ?a ?b ?c ?d = EOk (?t, _) -> _ => set (T := t) end. clearbody T. vm_compute (fullPdagStats cx_used true _ []). intros E. injection E as <- <-. vm_compute. reflexivity.
Qed.

Example C84_statistics_ex : history env0 isort cx_used /\ not_below (c_nodes cx_used) (comps cx_used) [] /\
  (exists vis', fullPdagStats cx_used false [] [] = EOk (lines
    ["User-Defined Types"; "=================="; "number types: 1"; "type: @hst"; ""; "type PDAG: @hst"; "----------";
     "nodes.............:    2"; "terminal nodes....:    1"; "parsers entries...:    1"; "longest path......:    2";
     "Parser Type Counts:"; "	               alpha: 1"; "Parsers per Node:"; "	max:	   1"; "	0:	   1"; "	1:	   1"; "";
     "Main PDAG"; "========="; "nodes.............:    9"; "terminal nodes....:    3"; "parsers entries...:    8"; "longest path......:    6";
     "Parser Type Counts:"; "	             literal: 5"; "	              number: 1"; "	                word: 1";
     "Parsers per Node:"; "	max:	   2"; "	0:	   3"; "	1:	   4"; "	2:	   2"]%string, vis')).
Proof. split; [exact used_history|]. split; [apply nothing_flagged|]. eexists. vm_compute. reflexivity. Qed.

(** ** What is not so *)
(** Asking twice need not give the same answer: the flags of the first walk are not cleared. *)
Theorem C84_twice_refuted : ~ (forall e q cx ids vis t vis' t2 vis2, permutes q -> history e q cx ->
  fullPdagStats cx false ids vis = EOk (t, vis') -> fullPdagStats cx false ids vis' = EOk (t2, vis2) -> t = t2).
Proof.
  intros H. destruct C84_statistics_ex as (HH & _ & v & E).
  revert E. destruct (fullPdagStats cx_used false [] []) as [[t1 v1]|u] eqn:E1; [|discriminate]. intros _.
  assert (HB : match fullPdagStats cx_used false [] [] with EOk (t1, v1) => match fullPdagStats cx_used false [] v1 with EOk (t2, _) => text_eqb t1 t2 | _ => true end | _ => true end = false) by (vm_compute; reflexivity).
  rewrite E1 in HB. destruct (fullPdagStats cx_used false [] v1) as [[t2 v2]|u] eqn:E2; [|discriminate HB].
  pose proof (H _ _ _ _ _ _ _ _ _ isort_permutes HH E1 E2) as HX. subst t2. rewrite text_eqb_refl in HB. discriminate HB.
Qed.
Print Assumptions C84_twice_refuted.
(** The longest path is not found when nodes are shared. *)
Definition rb_shared : list string :=
  ["version=2"; "rule=:%{""type"":""alternative"",""parser"":[[{""type"":""word"",""name"":""b""},{""type"":""literal"",""text"":"" ""},{""type"":""word"",""name"":""d""}],{""type"":""number"",""name"":""a""}]}%x"]%string.
Lemma shared_history : history env0 isort (cx_of rb_shared).
Proof. apply history_of. eexists. vm_compute. reflexivity. Qed.
Fixpoint walk (h : list (option node)) (r : nat) (ks : list nat) : option (list prs * nat) :=
  match ks with
  | [] => Some ([], r)
  | k :: ks' => match nth_error h r with
                | Some (Some n) => match nth_error (n_parsers n) k with
                                   | Some p => match walk h (p_child p) ks' with Some (ps, i) => Some (p :: ps, i) | None => None end
                                   | None => None
                                   end
                | _ => None
                end
  end.
Lemma walk_path h : forall ks r ps i, walk h r ks = Some (ps, i) -> path h r ps i.
Proof.
  induction ks as [|k ks IH]; intros r ps i H; cbn [walk] in H; [injection H as <- <-; constructor|].
  destruct (nth_error h r) as [[n|]|] eqn:E1; try discriminate H. destruct (nth_error (n_parsers n) k) as [p|] eqn:E2; [|discriminate H].
  destruct (walk h (p_child p) ks) as [[qs j]|] eqn:E3; [|discriminate H]. injection H as <- <-. econstructor; eauto. eapply nth_error_In; eauto.
Qed.
Theorem C84_longest_refuted : exists cx order vis' ps i, history env0 isort cx /\
  fullPdagStats cx false [] [] = EOk (full_report [] [] (report (c_nodes cx) order 3), vis') /\ path (c_nodes cx) (c_root cx) ps i /\ List.length ps = 4.
Proof.
  assert (HW : exists ps i, walk (c_nodes (cx_of rb_shared)) (c_root (cx_of rb_shared)) [1; 0; 0; 0] = Some (ps, i) /\ List.length ps = 4).
  { eexists _, _. split; vm_compute; reflexivity. }
  destruct HW as (ps & i & HW & HL). exists (cx_of rb_shared), [0; 3; 4; 1; 2]. eexists. exists ps, i. split; [exact shared_history|]. split; [vm_compute; reflexivity|]. split; [eapply walk_path; exact HW|exact HL].
Qed.
Print Assumptions C84_longest_refuted.
(** Loading again garbles the identifiers, also of a rulebase where nothing is shared. *)
Theorem C85_again_refuted : ~ (forall e q cx ids ids2, permutes q -> history e q cx -> data_complete (c_nodes cx) -> forest (c_nodes cx) (comps cx) ->
  setAllIDs (c_nodes cx) [] (comps cx) = EOk ids -> setAllIDs (c_nodes cx) ids (comps cx) = EOk ids2 ->
  forall r ps i, In r (comps cx) -> path (c_nodes cx) r ps i -> id_of ids2 i = Some (shown_path ps)).
Proof.
  intros H.
  assert (HE : exists ids ids2, setAllIDs (c_nodes cx_used) [] (comps cx_used) = EOk ids /\ setAllIDs (c_nodes cx_used) ids (comps cx_used) = EOk ids2 /\ id_of ids2 (c_root cx_used) = Some (L "[|]")).
  { eexists _, _. split; [vm_compute; reflexivity|]. split; vm_compute; reflexivity. }
  destruct HE as (ids & ids2 & E1 & E2 & E3). pose proof (H _ _ _ _ _ isort_permutes used_history used_complete used_forest E1 E2 (c_root cx_used) [] (c_root cx_used)) as HX.
  rewrite HX in E3; [discriminate E3| |constructor]. unfold comps. apply in_or_app. right. left. reflexivity.
Qed.
Print Assumptions C85_again_refuted.
(** Quotes and backslashes of literals are left out of the picture. *)
Theorem C83_literals_refuted : exists l l', load0 no_opts l <> load0 no_opts l' /\ history env0 isort (cx_of l) /\ history env0 isort (cx_of l') /\
  exists t v, dotGraph hex (cx_of l) [] = EOk (t, v) /\ dotGraph hex (cx_of l') [] = EOk (t, v).
Proof.
  exists ["version=2"; "rule=:a""q"]%string, ["version=2"; "rule=:aq\"]%string. split; [vm_compute; discriminate|].
  split; [apply history_of; eexists; vm_compute; reflexivity|]. split; [apply history_of; eexists; vm_compute; reflexivity|].
  eexists _, _. split; vm_compute; reflexivity.
Qed.
Print Assumptions C83_literals_refuted.
