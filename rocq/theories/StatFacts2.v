(** * StatFacts2: reading the DOT files back. *)
From Coq Require Import Permutation DecimalString.
From Verif Require Import Base BaseFacts Time Parsers Engine Pdag GraphSpec RuleSpec HeapFacts BuildFacts OptFacts LoadFacts Stat StatSpec StatFacts.

Definition plain (t : text) : Prop := Forall (fun c => ceq c """" = false /\ ceq c "\" = false) t.
Lemma lex_str t : plain t -> forall a rest, lex (LStr a) (t ++ """"%char :: rest) = option_map (cons (TStr (rev a ++ t))) (lex LStart rest).
Proof.
  intros H. induction H as [|c t [H1 H2] _ IH]; intros a rest.
  - cbn [app]. rewrite app_nil_r. reflexivity.
  - cbn [app lex]. rewrite H1, H2. rewrite IH. cbn [rev]. rewrite <- app_assoc. reflexivity.
Qed.
Lemma lex_id t : Forall (fun c => id_char c = true) t -> forall a c rest l s, id_char c = false -> lex_start c = Some (l, s) ->
  lex (LId a) (t ++ c :: rest) = option_map (app (TId (rev a ++ t) :: l)) (lex s rest).
Proof.
  intros H. induction H as [|x t H1 _ IH]; intros a c rest l s H2 H3.
  - cbn [app lex]. rewrite H2, H3, app_nil_r. reflexivity.
  - cbn [app lex]. rewrite H1. rewrite (IH _ _ _ l s); auto. cbn [rev]. rewrite <- app_assoc. reflexivity.
Qed.
Definition ids (t : text) : Prop := Forall (fun c => id_char c = true) t.
Lemma lex_node a rest : ids a -> lex LStart (("l"%char :: a) ++ " "%char :: rest) = option_map (cons (TId ("l"%char :: a))) (lex LStart rest).
Proof. intros H. cbn [app]. cbn [lex]. cbn [lex_start isspace id_char]. change (lex_start "l") with (Some (@nil token, LId ["l"%char])). cbn [option_map]. rewrite (lex_id a H ["l"%char] " "%char rest [] LStart eq_refl eq_refl). cbn [rev app]. destruct (lex LStart rest); reflexivity. Qed.

(** words printed as they are *)
Lemma om_app {A} (x y : list A) o : option_map (app x) (option_map (app y) o) = option_map (app (x ++ y)) o.
Proof. destruct o; cbn; rewrite <- ?app_assoc; reflexivity. Qed.
Definition lexes (t : text) (ts : list token) : Prop := forall rest, lex LStart (t ++ rest) = option_map (app ts) (lex LStart rest).
Lemma lexes_app a b x y : lexes a x -> lexes b y -> lexes (a ++ b) (x ++ y).
Proof. intros H1 H2 rest. rewrite <- app_assoc, H1, H2. apply om_app. Qed.
Lemma lexes_nil : lexes [] [].
Proof. intros rest. cbn [app]. destruct (lex LStart rest); reflexivity. Qed.
Lemma lexes_str t : plain t -> lexes (L """" ++ t ++ L """") [TStr t].
Proof. intros H rest. rewrite <- !app_assoc. change (L """" ++ t ++ L """" ++ rest) with (""""%char :: (t ++ """"%char :: rest)). cbn [lex]. change (lex_start """") with (Some (@nil token, LStr [])). cbn. rewrite (lex_str t H [] rest). destruct (lex LStart rest); reflexivity. Qed.
Lemma lexes_node a : ids a -> lexes (("l"%char :: a) ++ L " ") [TId ("l"%char :: a)].
Proof. intros H rest. rewrite <- app_assoc. change (L " " ++ rest) with (" "%char :: rest). rewrite (lex_node a rest H). destruct (lex LStart rest); reflexivity. Qed.

Lemma plain_app a b : plain a -> plain b -> plain (a ++ b). Proof. apply (fun H1 H2 => proj2 (Forall_app _ _ _) (conj H1 H2)). Qed.
Definition plainb (t : text) : bool := forallb (fun c => negb (ceq c """") && negb (ceq c "\"))%bool t.
Lemma plainb_ok t : plainb t = true -> plain t.
Proof. unfold plainb, plain. rewrite forallb_forall, Forall_forall. intros H x Hx. specialize (H x Hx). apply andb_prop in H as [H1 H2]. split; [destruct (ceq x """")|destruct (ceq x "\")]; auto. Qed.
Lemma plain_uint : forall u, plain (L (NilEmpty.string_of_uint u)).
Proof. induction u; cbn; constructor; auto. Qed.
Lemma plain_int z : plain (decimal z).
Proof.
  unfold decimal. destruct (Z.to_int z) as [u|u]; cbn [NilZero.string_of_int].
  - unfold NilZero.string_of_uint. destruct u; try apply plain_uint. apply plainb_ok. reflexivity.
  - cbn [L list_ascii_of_string]. constructor; [split; reflexivity|]. unfold NilZero.string_of_uint. destruct u; try apply plain_uint. apply plainb_ok. reflexivity.
Qed.
Lemma plain_no_quotes t : plain (no_quotes t).
Proof. unfold no_quotes. apply Forall_forall. intros x Hx. apply filter_In in Hx as [_ Hx]. apply Bool.negb_true_iff in Hx. apply Bool.orb_false_iff in Hx as [H1 H2]. auto. Qed.
Lemma plain_literal p : plain (literal_text p).
Proof. unfold literal_text. destruct (p_kind p) as [m|a b c|t]; try constructor. destruct m; try constructor. apply plain_no_quotes. Qed.
Lemma plain_name k : (forall ty, k <> KSimple (MNoData ty)) -> plain (parserName k).
Proof. intros H. destruct k as [m|a b c|t]; try (apply plainb_ok; reflexivity). destruct m; try (apply plainb_ok; reflexivity). exfalso. eapply H; eauto. Qed.

(** statements *)
Definition attr_toks (x : text * text) : list token := [TId (fst x); TEq; TStr (snd x)].
Definition toks (x : stmt) : list token :=
  match x with (a, b, l) => TId a :: match b with None => [] | Some b => [TArrow; TId b] end ++ TOpen :: flat_map attr_toks l ++ [TClose] end.
Lemma parse_attrs : forall l a b acc rest, parse (PAttr a b acc) (flat_map attr_toks l ++ TClose :: rest) = option_map (cons (a, b, rev acc ++ l)) (parse PIdle rest).
Proof.
  induction l as [|[k v] l IH]; intros a b acc rest; cbn [flat_map app attr_toks fst snd parse].
  - rewrite app_nil_r. reflexivity.
  - rewrite IH. cbn [rev]. rewrite <- app_assoc. reflexivity.
Qed.
Lemma parse_stmt x rest : parse PIdle (toks x ++ rest) = option_map (cons x) (parse PIdle rest).
Proof.
  destruct x as [[a [b|]] l]; cbn [toks app].
  - change (parse PIdle (TId a :: TArrow :: TId b :: TOpen :: (flat_map attr_toks l ++ [TClose]) ++ rest)) with (parse (PAttr a (Some b) []) ((flat_map attr_toks l ++ [TClose]) ++ rest)).
    rewrite <- app_assoc. cbn [app]. rewrite parse_attrs. reflexivity.
  - change (parse PIdle (TId a :: TOpen :: (flat_map attr_toks l ++ [TClose]) ++ rest)) with (parse (PAttr a None []) ((flat_map attr_toks l ++ [TClose]) ++ rest)).
    rewrite <- app_assoc. cbn [app]. rewrite parse_attrs. reflexivity.
Qed.
Lemma parse_stmts l : parse PIdle (flat_map toks l ++ [TEnd]) = Some l.
Proof. induction l as [|x l IH]; [reflexivity|]. cbn [flat_map]. rewrite <- app_assoc, parse_stmt, IH. reflexivity. Qed.

Section A.
Variable addr : nat -> text.
Hypothesis addr_ids : forall i, ids (addr i).
Notation nm := (fun i => "l"%char :: addr i).
Lemma lexes_lit1 : lexes (L "[ label=") [TOpen; TId (L "label"); TEq]. Proof. intros rest. cbn. destruct (lex LStart rest); reflexivity. Qed.
Lemma lexes_lit2 : lexes (L " style=""bold""") [TId (L "style"); TEq; TStr (L "bold")]. Proof. intros rest. cbn. destruct (lex LStart rest); reflexivity. Qed.
Lemma lexes_lit3 : lexes (L "]" ++ eol) [TClose]. Proof. intros rest. cbn. destruct (lex LStart rest); reflexivity. Qed.
Lemma lexes_lit4 : lexes (L "-> ") [TArrow]. Proof. intros rest. cbn. destruct (lex LStart rest); reflexivity. Qed.
Lemma lexes_lit5 : lexes (L "[label=") [TOpen; TId (L "label"); TEq]. Proof. intros rest. cbn. destruct (lex LStart rest); reflexivity. Qed.
Lemma lexes_lit6 : lexes (L " style=""dotted""]" ++ eol) [TId (L "style"); TEq; TStr (L "dotted"); TClose]. Proof. intros rest. cbn. destruct (lex LStart rest); reflexivity. Qed.
Lemma lexes_bold n : lexes (match n_parsers n with [] => L " style=""bold""" | _ => [] end) (flat_map attr_toks (bold n)).
Proof. unfold bold. destruct (n_parsers n); [apply lexes_lit2|apply lexes_nil]. Qed.
Lemma lexes_eq t t' ts ts' : lexes t ts -> t' = t -> ts' = ts -> lexes t' ts'. Proof. intros H -> ->. exact H. Qed.
Lemma lexes_node_line i lbl n : plain lbl ->
  lexes (dotAddPtr addr i ++ L " [ label=""" ++ lbl ++ L """" ++ (match n_parsers n with [] => L " style=""bold""" | _ => [] end) ++ L "]" ++ eol)
        (toks (nm i, None, (L "label", lbl) :: bold n)).
Proof.
  intros H. eapply lexes_eq; [exact (lexes_app _ _ _ _ (lexes_node _ (addr_ids i)) (lexes_app _ _ _ _ lexes_lit1 (lexes_app _ _ _ _ (lexes_str _ H) (lexes_app _ _ _ _ (lexes_bold n) lexes_lit3))))|..].
  - unfold dotAddPtr. rewrite <- !app_assoc. reflexivity.
  - cbn [toks flat_map attr_toks fst snd app]. reflexivity.
Qed.
Lemma lexes_edge_line i j lbl : plain lbl ->
  lexes (dotAddPtr addr i ++ L " -> " ++ dotAddPtr addr j ++ L " [label=""" ++ lbl ++ L """" ++ L " style=""dotted""]" ++ eol)
        (toks (nm i, Some (nm j), [(L "label", lbl); (L "style", L "dotted")])).
Proof.
  intros H. eapply lexes_eq; [exact (lexes_app _ _ _ _ (lexes_node _ (addr_ids i)) (lexes_app _ _ _ _ lexes_lit4 (lexes_app _ _ _ _ (lexes_node _ (addr_ids j)) (lexes_app _ _ _ _ lexes_lit5 (lexes_app _ _ _ _ (lexes_str _ H) lexes_lit6)))))|..].
  - unfold dotAddPtr. rewrite <- !app_assoc. reflexivity.
  - reflexivity.
Qed.
Definition item_ok (x : item) : Prop := match x with INode _ _ => True | IEdge _ p => forall ty, p_kind p <> KSimple (MNoData ty) end.
Lemma lexes_dot x : item_ok x -> lexes (dot_item addr x) (toks (shown nm x)).
Proof.
  destruct x as [i n|i p]; intros H; cbn [dot_item shown].
  - unfold dotNode. apply lexes_node_line. apply plain_int.
  - unfold dotEdge. eapply lexes_eq; [apply (lexes_edge_line i (p_child p) (parserName (p_kind p) ++ L ":" ++ literal_text p))|..].
    + apply plain_app; [apply plain_name; auto|]. apply plain_app; [apply plainb_ok; reflexivity|]. apply plain_literal.
    + unfold edge_data. rewrite <- !app_assoc. reflexivity.
    + reflexivity.
Qed.
Lemma lexes_sdot x : item_ok x -> lexes (sdot_item addr x) (toks (shown_use nm x)).
Proof.
  destruct x as [i n|i p]; intros H; cbn [sdot_item shown_use].
  - unfold sdotNode. eapply lexes_eq; [apply (lexes_node_line i (decimal (Z.of_N (n_called n)) ++ L ":" ++ decimal (Z.of_N (n_backtracked n))) n)|..].
    + apply plain_app; [apply plain_int|]. apply plain_app; [apply plainb_ok; reflexivity|apply plain_int].
    + unfold decimal, show_Z. rewrite <- !app_assoc. reflexivity.
    + reflexivity.
  - unfold sdotEdge, is_lit. apply lexes_eq with (2 := eq_refl) (ts := toks (shown_use nm (IEdge i p))); [|reflexivity]. cbn [shown_use].
    eapply lexes_eq; [apply (lexes_edge_line i (p_child p) (if text_eqb (parserName (p_kind p)) (L "literal") then literal_text p else parserName (p_kind p)))|..].
    + destruct (text_eqb _ _); [apply plain_literal|apply plain_name; auto].
    + unfold edge_data. rewrite <- ?app_assoc. reflexivity.
    + reflexivity.
Qed.
Lemma lexes_items f g l : (forall x, item_ok x -> lexes (f x) (toks (g x))) -> Forall item_ok l -> lexes (flat_map f l) (flat_map toks (map g l)).
Proof. intros H HF. induction HF as [|x l Hx _ IH]; [apply lexes_nil|]. cbn [flat_map map]. apply lexes_app; auto. Qed.
Lemma read_items f (g : item -> stmt) l : (forall x, item_ok x -> lexes (f x) (toks (g x))) -> Forall item_ok l ->
  read_dot (L "digraph pdag {" ++ eol ++ flat_map f l ++ L "}" ++ eol) = Some (map g l).
Proof.
  intros H HF. unfold read_dot. pose proof (lexes_items f g l H HF) as HL.
  assert (H0 : lexes (L "digraph pdag {" ++ eol) [TId (L "digraph"); TId (L "pdag"); TBegin]) by (intros rest; cbn; destruct (lex LStart rest); reflexivity).
  assert (H1 : lexes (L "}" ++ eol) [TEnd]) by (intros rest; cbn; destruct (lex LStart rest); reflexivity).
  pose proof (lexes_app _ _ _ _ H0 (lexes_app _ _ _ _ HL H1)) as HH. specialize (HH []). rewrite app_nil_r, <- app_assoc in HH. rewrite HH.
  cbn [lex option_map]. rewrite app_nil_r. cbn [app]. change (text_eqb (L "digraph") (L "digraph")) with true. cbn iota. apply parse_stmts.
Qed.
End A.

(** ** graphs of a context *)
Lemma safe_good cx : msafe cx -> exists rk, (forall i n p, live (c_nodes cx) i n -> In p (n_parsers n) -> (exists m, live (c_nodes cx) (p_child p) m) /\ rk (p_child p) < rk i) /\
  (forall i n, live (c_nodes cx) i n -> rk i < List.length (c_nodes cx)) /\ forall i, In i (owners cx) -> exists n, live (c_nodes cx) i n.
Proof.
  intros (G & rk & HG). destruct (gi_lowrank _ _ _ HG) as [HG' HB]. exists (lowrank (c_nodes cx) rk). split; [|split; [exact HB|]].
  - intros i n p Hi Hp. assert (HT : In (p_child p) (targets p)) by (left; reflexivity). split; [eapply gi_target; eauto|]. destruct HG' as (_ & _ & HK). eapply HK; eauto.
  - intros i Hi. eapply gi_live; [exact HG|]. apply in_or_app. auto.
Qed.
Lemma items_ok h keep order : data_complete h -> Forall item_ok (flat_map (items_of h keep) order).
Proof.
  intros HD. apply Forall_flat_map, Forall_forall. intros i _. unfold items_of. destruct (nth_error h i) as [[n|]|] eqn:E; constructor; [exact I|].
  apply Forall_forall. intros x Hx. apply in_map_iff in Hx as (p & <- & Hp). apply filter_In in Hp as [Hp _]. intros ty. exact (HD i n p ty E Hp).
Qed.
Lemma comps_owners cx i : In i (comps cx) -> In i (owners cx).
Proof. unfold comps, owners. intros H. apply in_app_or in H as [H|[<-|[]]]; cbn; auto. Qed.
Lemma kpath_every h keep r ps i : kpath h keep r ps i -> kpath h everything r ps i.
Proof. induction 1; econstructor; eauto. Qed.
Lemma picture cx vis keep f (g : item -> stmt) (pr : er (text * list nat)) : msafe cx -> data_complete (c_nodes cx) ->
  (forall x, item_ok x -> lexes (f x) (toks (g x))) ->
  pr = (do* vis := clearAll (c_nodes cx) vis (comps cx) in
        do* (t, vis) := (do* (it, v) := trav (c_nodes cx) keep (heap_fuel (c_nodes cx)) vis (c_root cx) in EOk (flat_map f it, v)) in
        EOk (L "digraph pdag {" ++ eol ++ t ++ L "}" ++ eol, vis)) ->
  exists t vis' order stmts, pr = EOk (t, vis') /\ new_below (c_nodes cx) keep (c_root cx) [] order /\
    read_dot t = Some stmts /\ Permutation stmts (map g (flat_map (items_of (c_nodes cx) keep) order)) /\
    (forall i, In i vis' <-> In i order \/ In i vis /\ ~ (exists r, In r (owners cx) /\ below (c_nodes cx) everything r i)).
Proof.
  intros HM HD HL ->. destruct (safe_good cx HM) as (rk & HG & HB & HO).
  destruct (clearAll_ok (c_nodes cx) rk HG (List.length (c_nodes cx)) HB) with (l := comps cx) (vis := vis) as (v0 & E0 & A0); [unfold heap_fuel; lia|intros i Hi; apply HO; apply comps_owners; auto|].
  rewrite E0. cbn [ebind]. destruct (HO (c_root cx)) as [n Hn]; [left; reflexivity|].
  assert (Hroot : In (c_root cx) (comps cx)) by (unfold comps; apply in_or_app; right; left; reflexivity).
  destruct (trav_all (c_nodes cx) rk HG keep (below (c_nodes cx) keep (c_root cx))) with (f := heap_fuel (c_nodes cx)) (vis := v0) (nd := c_root cx) (n := n) as (it & o & v & E & A1 & A2 & A3 & _).
  - intros i m p (ps & HP) Hi Hp Hk. exists (ps ++ [p]). revert HP Hi. generalize (c_root cx). clear -Hp Hk. induction ps as [|x ps IH]; intros r HP Hi; inversion HP; subst; cbn [app].
    + econstructor; eauto. constructor.
    + econstructor; eauto.
  - exists []. constructor.
  - exact Hn.
  - pose proof (HB _ _ Hn). unfold heap_fuel. lia.
  - intros i m p (ps & HP) Hi. exfalso. apply A0 in Hi as [_ Hi]. apply Hi. exists (c_root cx). split; [exact Hroot|]. exists ps. eapply kpath_every; eauto.
  - rewrite E. cbn [ebind]. destruct A1 as [A1 A1'].
    assert (HO' : forall i, In i o <-> below (c_nodes cx) keep (c_root cx) i).
    { intros i. rewrite A1'. split; [tauto|]. intros HBe. split; auto. intros Hi. apply A0 in Hi as [_ Hi]. apply Hi. exists (c_root cx). split; [exact Hroot|]. destruct HBe as [ps HP]. exists ps. eapply kpath_every; eauto. }
    eexists _, v, o, (map g it). split; [reflexivity|]. split; [split; [exact A1|intros i; rewrite HO'; cbn; tauto]|]. split; [|split].
    + apply (read_items f g it HL). eapply Permutation_Forall; [symmetry; exact A2|]. apply items_ok; auto.
    + apply Permutation_map. exact A2.
    + intros i. split.
      * intros Hi. apply (Permutation_in _ A3) in Hi. apply in_app_or in Hi as [Hi|Hi]; auto. right. apply A0 in Hi as [H1 H2]. split; auto. intros (r & Hr & HBe). apply H2. exists r. split; auto. unfold owners in Hr. unfold comps. apply in_or_app. destruct Hr as [<-|Hr]; cbn; auto.
      * intros Hi. apply (Permutation_in _ (Permutation_sym A3)). apply in_or_app. destruct Hi as [Hi|[H1 H2]]; auto. right. apply A0. split; auto. intros (r & Hr & HBe). apply H2. exists r. split; auto. apply comps_owners; auto.
Qed.
