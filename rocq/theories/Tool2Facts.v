(** * Tool2Facts: the use of a rulebase adds up over the lines; identifiers always can be set. *)
From Verif Require Import Base BaseFacts Time Parsers Engine Pdag Samp GraphSpec Enc Tool ToolSpec Tool2 ToolSpec2 EngineFacts2 HeapFacts DeleteFacts EngineHist ToolFacts Stat StatSpec StatFacts StatFacts2 StatFacts4 FreshFacts.
From Coq Require Import ZifyBool ZifyNat ZifyN.

(** ** Logs *)
Lemma normalize_log fuel e c c' msg js ok o c1 : same_ctx c c' -> normalize fuel e c msg js = EOk (ok, o, c1) ->
  exists log, c1 = apply_log c log /\ normalize fuel e c' msg js = EOk (ok, o, apply_log c' log).
Proof.
  intros HS H. pose proof (normalize_same e c c' msg HS fuel js) as HV. rewrite H in HV. cbn [visible] in HV.
  unfold normalize in *. apply ebind_ok in H as ([k s] & HR & H). rewrite <- (proj1 (proj2 HS)) in *.
  rewrite <- (normalizeRec_same e c c' msg HS) in *. rewrite HR in *. cbn [ebind] in HV |- *. exists (r_log s).
  cbv zeta in H, HV |- *. split.
  - destruct k; [|destruct (Nat.ltb _ _); [discriminate|]; injection H as _ _ <-; reflexivity]. destruct (r_end s); [|discriminate].
    apply ebind_ok in H as (? & _ & H). apply ebind_ok in H as (? & _ & H). apply ebind_ok in H as (? & _ & H). injection H as _ _ <-. reflexivity.
  - destruct k; [|destruct (Nat.ltb _ _); [discriminate|]; injection HV as -> ->; reflexivity]. destruct (r_end s); [|discriminate].
    destruct (get_node (c_nodes c') n) as [m|]; cbn [ebind] in *; [|discriminate].
    match goal with |- ebind ?x _ = _ => destruct x; cbn [ebind] in *; [|discriminate] end.
    match goal with |- ebind ?x _ = _ => destruct x; cbn [ebind] in *; [|discriminate] end. injection HV as -> ->. reflexivity.
Qed.

(** how often a log has been at node [i], or back from it *)
Definition hits (b : bool) (i : nat) (log : list (nat * bool)) : N :=
  N.of_nat (List.length (filter (fun x => (Nat.eqb (fst x) i && Bool.eqb (snd x) b)%bool) log)).
Lemma nth_upd : forall (h : list (option node)) i j f, nth_error (upd_node h i f) j = if Nat.eqb i j then option_map (option_map f) (nth_error h j) else nth_error h j.
Proof. unfold upd_node. induction h as [|x h IH]; intros [|i] [|j] f; cbn; auto; try (destruct (Nat.eqb i j); reflexivity). Qed.
Definition M : N := (2 ^ 32)%N.
Definition bounded (h : list (option node)) : Prop := forall i, (called_at h i < M)%N /\ (back_at h i < M)%N.
Lemma bump_bounded h i b : bounded h -> bounded (upd_node h i (fun n => Engine.bump n b)).
Proof.
  intros HB j. specialize (HB j). unfold called_at, back_at in *. rewrite nth_upd. destruct (Nat.eqb i j); [|exact HB]. destruct (nth_error h j) as [[n|]|]; cbn [option_map]; try exact HB.
  destruct b; cbn [Engine.bump n_called n_backtracked]; destruct HB as [H1 H2]; (split; [|]); try assumption; apply N.mod_lt; discriminate.
Qed.
Lemma bump_at h i b j : bounded h -> (exists n, nth_error h j = Some (Some n)) ->
  called_at (upd_node h i (fun n => Engine.bump n b)) j = ((called_at h j + hits true j [(i, b)]) mod M)%N /\
  back_at (upd_node h i (fun n => Engine.bump n b)) j = ((back_at h j + hits false j [(i, b)]) mod M)%N.
Proof.
  intros HB (n & Hn). destruct (HB j) as [H1 H2]. unfold called_at, back_at, hits in *. rewrite nth_upd. cbn [filter fst snd]. destruct (Nat.eqb_spec i j) as [<-|NE].
  - rewrite Hn in *. cbn [option_map]. destruct b; cbn [Bool.eqb andb List.length Engine.bump n_called n_backtracked]; rewrite ?N.add_0_r; split; try reflexivity; rewrite N.mod_small by assumption; reflexivity.
  - cbn [andb List.length]. rewrite !N.add_0_r. rewrite !N.mod_small by lia. auto.
Qed.
Lemma hits_app b i l1 l2 : hits b i (l1 ++ l2) = (hits b i l1 + hits b i l2)%N.
Proof. unfold hits. rewrite filter_app, app_length. lia. Qed.
Lemma apply_log_at cx log j : bounded (c_nodes cx) -> (exists n, nth_error (c_nodes cx) j = Some (Some n)) ->
  bounded (c_nodes (apply_log cx log)) /\
  (exists n, nth_error (c_nodes (apply_log cx log)) j = Some (Some n)) /\
  called_at (c_nodes (apply_log cx log)) j = ((called_at (c_nodes cx) j + hits true j log) mod M)%N /\
  back_at (c_nodes (apply_log cx log)) j = ((back_at (c_nodes cx) j + hits false j log) mod M)%N.
Proof.
  intros HB HJ. unfold apply_log. cbn [c_nodes set_nodes].
  assert (HR : forall b, hits b j log = hits b j (rev log)).
  { intros b. unfold hits. f_equal. clear. induction log as [|x l IH]; [reflexivity|]. cbn [rev filter]. rewrite filter_app, app_length. cbn [filter]. destruct (_ && _)%bool; cbn [List.length]; lia. }
  rewrite !HR. revert HB HJ. generalize (rev log), (c_nodes cx). clear. induction l as [|[i b] l IH]; intros h HB HJ; cbn [fold_left fst snd].
  - unfold hits. cbn [filter List.length]. destruct (HB j). rewrite !N.add_0_r, !N.mod_small by lia. auto.
  - destruct (bump_at h i b j HB HJ) as (B2 & B3). destruct (IH _ (bump_bounded h i b HB)) as (C1 & C4 & C2 & C3).
    { destruct HJ as (n & Hn). rewrite nth_upd, Hn. destruct (Nat.eqb i j); cbn; eauto. }
    split; [exact C1|]. split; [exact C4|]. rewrite C2, C3, B2, B3. change ((i, b) :: l) with ([(i, b)] ++ l). rewrite !hits_app, !N.add_mod_idemp_l by discriminate. split; f_equal; lia.
Qed.

(** ** The context after the input *)
Inductive reads : text -> list text -> Prop :=
| rd_nil : reads [] []
| rd_cons : forall inp l rest ls, read_line inp = Some (uncr l, rest) -> reads rest ls -> reads inp (l :: ls).
Lemma tool_lines_reads inp ls : tool_lines inp ls -> reads inp ls.
Proof.
  assert (HA : forall ls tail lt, Forall is_line ls -> reads tail lt -> reads (as_input ls ++ tail) (ls ++ lt)).
  { clear. induction ls as [|l ls IH]; intros tail lt HF HT; [exact HT|]. pose proof (Forall_inv HF) as Hl. pose proof (Forall_inv_tail HF) as HF'. unfold as_input in *. cbn [flat_map app]. rewrite <- app_assoc.
    eapply rd_cons; [apply read_line_app; exact Hl|]. apply IH; assumption. }
  intros [ls0 HF|ls0 l c HF Hl].
  - specialize (HA ls0 [] [] HF rd_nil). rewrite !app_nil_r in HA. exact HA.
  - apply HA; [exact HF|]. eapply rd_cons; [apply read_line_end; exact Hl|constructor].
Qed.
(** the log of a line, normalized with [cx] *)
Definition line_log (fuel : nat) (e : env) (cx : ctx) (l : text) (log : list (nat * bool)) : Prop :=
  exists ok o, normalize fuel e cx (cstr (uncr l)) [] = EOk (ok, o, apply_log cx log).
Lemma tool_loop_logs fuel e s cx0 : forall inp ls, reads inp ls -> forall n cx k nbr out k' cx', same_ctx cx0 cx ->
  tool_loop n fuel e s cx k nbr inp = EOk (out, k', cx') ->
  exists logs, Forall2 (line_log fuel e cx0) ls logs /\ cx' = fold_left apply_log logs cx.
Proof.
  induction 1 as [|inp l rest ls HR _ IH]; intros n cx k nbr out k' cx' HS E; (destruct n as [|n]; [discriminate|]); cbn [tool_loop] in E.
  - cbn in E. injection E as _ _ <-. exists []. split; [constructor|reflexivity].
  - rewrite HR in E. apply ebind_ok in E as ([[o1 k1] c1] & E1 & E). apply ebind_ok in E as ([[o2 k2] c2] & E2 & E). injection E as _ _ <-.
    assert (HN : exists ok o, normalize fuel e cx (cstr (uncr l)) [] = EOk (ok, o, c1)).
    { unfold one_line in E1. apply ebind_ok in E1 as ([[ok o] c3] & HN & E1). exists ok, o. rewrite HN. do 2 f_equal.
      apply ebind_ok in E1 as (tg & _ & E1). destruct tg; [|injection E1 as _ _ <-; reflexivity]. cbv zeta in E1.
      destruct (obj_get o (L "unparsed-data")); [destruct (s_unparsed s)|destruct (s_parsed s)]; try (injection E1 as _ _ <-; reflexivity); apply ebind_ok in E1 as (x & _ & E1); injection E1 as _ _ <-; reflexivity. }
    destruct HN as (ok & o & HN). pose proof (normalize_keeps _ _ _ _ _ _ _ HN) as HK.
    assert (HS' : same_ctx cx cx0). { clear - HS. destruct HS as (HF & HS). split; [|intuition congruence]. clear - HF. induction HF as [|x y a b Hxy HF IH]; constructor; auto. destruct x, y; cbn in *; auto. unfold same_node in *. intuition congruence. }
    destruct (normalize_log _ _ cx cx0 _ _ _ _ _ HS' HN) as (log & -> & HN0).
    destruct (IH n _ _ _ _ _ _ (same_ctx_trans _ _ _ HS HK) E2) as (logs & HF & ->).
    exists (log :: logs). split; [constructor; [exists ok, o; exact HN0|exact HF]|reflexivity].
Qed.

Lemma logs_at : forall logs cx j, bounded (c_nodes cx) -> (exists n, nth_error (c_nodes cx) j = Some (Some n)) ->
  (exists n, nth_error (c_nodes (fold_left apply_log logs cx)) j = Some (Some n)) /\
  called_at (c_nodes (fold_left apply_log logs cx)) j = ((called_at (c_nodes cx) j + sum (map (hits true j) logs)) mod M)%N /\
  back_at (c_nodes (fold_left apply_log logs cx)) j = ((back_at (c_nodes cx) j + sum (map (hits false j) logs)) mod M)%N.
Proof.
  induction logs as [|log logs IH]; intros cx j HB HJ; cbn [fold_left map sum fold_right].
  - destruct (HB j). rewrite !N.add_0_r, !N.mod_small by lia. auto.
  - destruct (apply_log_at cx log j HB HJ) as (B1 & B2 & B3 & B4). destruct (IH _ _ B1 B2) as (C1 & C2 & C3). split; [exact C1|]. rewrite C2, C3, B3, B4, !N.add_mod_idemp_l by discriminate. unfold sum. split; f_equal; lia.
Qed.
Lemma fresh_bounded h : fresh h -> bounded h.
Proof. intros H i. unfold called_at, back_at. destruct (nth_error h i) as [[n|]|] eqn:E; [destruct (H i n E) as [-> ->]|..]; split; reflexivity. Qed.
Lemma fresh_at h i : fresh h -> called_at h i = 0%N /\ back_at h i = 0%N.
Proof. intros H. unfold called_at, back_at. destruct (nth_error h i) as [[n|]|] eqn:E; [destruct (H i n E) as [-> ->]|..]; split; reflexivity. Qed.
Lemma sum_mod l : (sum (map (fun x => x mod M) l) mod M = sum l mod M)%N.
Proof. induction l as [|x l IH]; [reflexivity|]. cbn [map sum fold_right]. change (fold_right N.add 0%N ?l) with (sum l). rewrite N.add_mod_idemp_l by discriminate. rewrite <- (N.add_mod_idemp_r x (sum (map _ l))), IH, N.add_mod_idemp_r by discriminate. reflexivity. Qed.
(** What each line alone does to the counters of a node adds up. *)
Lemma tool_counts fuel e s cx inp ls out notes cx' : fresh (c_nodes cx) -> tool_lines inp ls -> tool_normalize fuel e s cx inp = EOk (out, notes, cx') ->
  same_ctx cx cx' /\
  exists cxs, Forall2 (fun l c => exists msg ok o, line_text l msg /\ normalize fuel e cx (cstr msg) [] = EOk (ok, o, c)) ls cxs /\
    forall i n, live (c_nodes cx') i n ->
      n_called n = (sum (map (fun c => called_at (c_nodes c) i) cxs) mod M)%N /\
      n_backtracked n = (sum (map (fun c => back_at (c_nodes c) i) cxs) mod M)%N.
Proof.
  intros HF HL E. unfold tool_normalize in E. apply ebind_ok in E as ([[o k] c] & E & E2). injection E2 as _ _ <-.
  destruct (tool_loop_logs fuel e s cx inp ls (tool_lines_reads _ _ HL) _ _ _ _ _ _ _ (same_ctx_refl cx) E) as (logs & HG & ->).
  assert (HS : forall logs cx, same_ctx cx (fold_left apply_log logs cx)).
  { clear. induction logs as [|l logs IH]; intros cx; [apply same_ctx_refl|]. cbn [fold_left]. eapply same_ctx_trans; [apply apply_log_same|apply IH]. }
  split; [apply HS|]. exists (map (apply_log cx) logs). split.
  - clear - HG. induction HG as [|l log ls logs (ok & o & H) HG IH]; constructor; [|exact IH]. exists (uncr l), ok, o. split; [apply line_text_uncr|exact H].
  - intros i n Hn.
    assert (HJ : exists m, nth_error (c_nodes cx) i = Some (Some m)).
    { pose proof (get_node_same _ _ (HS logs cx) i) as HG2. unfold get_node in HG2. rewrite Hn in HG2. destruct (nth_error (c_nodes cx) i) as [[m|]|]; [eauto|destruct HG2..]. }
    destruct (logs_at logs cx i (fresh_bounded _ HF) HJ) as (_ & H1 & H2). destruct (fresh_at _ i HF) as [F1 F2]. rewrite F1 in H1. rewrite F2 in H2. cbn [N.add] in H1, H2.
    unfold called_at at 1 in H1. unfold back_at at 1 in H2. rewrite Hn in H1, H2. rewrite H1, H2, <- sum_mod, <- (sum_mod (map (hits false i) logs)), !map_map.
    assert (HX : forall log, called_at (c_nodes (apply_log cx log)) i = (hits true i log mod M)%N /\ back_at (c_nodes (apply_log cx log)) i = (hits false i log mod M)%N).
    { intros log. destruct (apply_log_at cx log i (fresh_bounded _ HF) HJ) as (_ & _ & A1 & A2). rewrite F1 in A1. rewrite F2 in A2. auto. }
    split; do 2 f_equal; apply map_ext; intros log; symmetry; apply HX.
Qed.

(** ** Identifiers can always be set *)
Section Ids.
Variable h : list (option node).
Variable rk : nat -> nat.
Hypothesis good : forall i n p, live h i n -> In p (n_parsers n) -> (exists m, live h (p_child p) m) /\ rk (p_child p) < rk i.
Hypothesis bound : forall i n, live h i n -> rk i < List.length h.
Hypothesis complete : data_complete h.
Section Go.
Variable R : list (nat * text) -> nat -> er (list (nat * text)).
Fixpoint delgo (l : list prs) (ids : list (nat * text)) : er (list (nat * text)) :=
  match l with
  | [] => EOk ids
  | p :: l' => do* ids := R ids (p_child p) in delgo l' ids
  end.
End Go.
Lemma deleteIDs_eq f ids nd : deleteIDs h (S f) ids nd = do* n := get_node h nd in delgo (deleteIDs h f) (n_parsers n) (del_id ids nd).
Proof. reflexivity. Qed.
Lemma deleteIDs_total : forall f ids nd n, live h nd n -> rk nd < f -> exists ids', deleteIDs h f ids nd = EOk ids'.
Proof.
  induction f as [|f IH]; intros ids nd n Hn Hf; [lia|]. rewrite deleteIDs_eq, (live_get _ _ _ Hn). cbn [ebind].
  assert (HI : incl (n_parsers n) (n_parsers n)) by (intros x Hx; exact Hx). revert HI. generalize (del_id ids nd). generalize (n_parsers n) at 1 3. induction l as [|p l IHl]; intros ids1 HI; [eexists; reflexivity|].
  cbn [delgo]. destruct (good _ _ _ Hn (HI p (or_introl eq_refl))) as [[m Hm] Hr]. destruct (IH ids1 (p_child p) m Hm) as (ids2 & E); [lia|]. rewrite E. cbn [ebind]. apply IHl. intros x Hx. apply HI. right. exact Hx.
Qed.
Lemma setIDs_total : forall f ids nd prefix n, live h nd n -> rk nd < f -> exists ids', setIDs h f ids nd prefix = EOk ids'.
Proof.
  induction f as [|f IH]; intros ids nd prefix n Hn Hf; [lia|]. rewrite setIDs_eq, (live_get _ _ _ Hn). cbn [ebind].
  assert (HX : exists pr ids1, match id_of ids nd with None => EOk (prefix, put_id ids nd prefix) | Some cur => let u := fixed_id cur prefix in do* ids := deleteIDs h (heap_fuel h) ids nd in EOk (u, put_id ids nd u) end = EOk (pr, ids1)).
  { destruct (id_of ids nd); [|eauto]. cbv zeta. destruct (deleteIDs_total (heap_fuel h) ids nd n Hn) as (ids1 & E); [pose proof (bound _ _ Hn); unfold heap_fuel; lia|]. rewrite E. cbn [ebind]. eauto. }
  cbv zeta in HX. destruct HX as (pr & ids1 & ->). cbn [ebind].
  assert (HI : incl (n_parsers n) (n_parsers n)) by (intros x Hx; exact Hx). revert HI. generalize ids1. generalize (n_parsers n) at 1 3. induction l as [|p l IHl]; intros ids2 HI; [eexists; reflexivity|].
  cbn [idgo]. rewrite (field_id_ok h complete nd n p Hn (HI p (or_introl eq_refl))). cbn [ebind]. destruct (good _ _ _ Hn (HI p (or_introl eq_refl))) as [[m Hm] Hr]. destruct (IH ids2 (p_child p) (pr ++ shown_field p) m Hm) as (ids3 & E); [lia|]. rewrite E. cbn [ebind]. apply IHl. intros x Hx. apply HI. right. exact Hx.
Qed.
Lemma setAllIDs_total : forall l ids, (forall r, In r l -> exists n, live h r n) -> exists ids', setAllIDs h ids l = EOk ids'.
Proof.
  induction l as [|r l IH]; intros ids HL; [eexists; reflexivity|]. cbn [setAllIDs]. destruct (HL r (or_introl eq_refl)) as [n Hn].
  destruct (setIDs_total (heap_fuel h) ids r [] n Hn) as (ids1 & E); [pose proof (bound _ _ Hn); unfold heap_fuel; lia|]. rewrite E. cbn [ebind]. apply IH. intros x Hx. apply HL. right. exact Hx.
Qed.
End Ids.
(** and do not depend on the counters *)
Lemma get_same h h' i : Forall2 same_slot h h' -> match get_node h i, get_node h' i with
  | EOk n, EOk n' => same_node n n' | EUb u, EUb u' => u = u' | _, _ => False end.
Proof. intros HF. unfold get_node. revert i. induction HF as [|x y l l' Hxy HF IH]; intros [|i]; cbn [nth_error]; auto; [destruct x, y; cbn in Hxy; tauto|apply IH]. Qed.
Lemma deleteIDs_same h h' : Forall2 same_slot h h' -> forall f ids nd, deleteIDs h f ids nd = deleteIDs h' f ids nd.
Proof.
  intros HF. induction f as [|f IH]; intros ids nd; [reflexivity|]. rewrite !deleteIDs_eq. pose proof (get_same h h' nd HF) as HG. destruct (get_node h nd) as [n|], (get_node h' nd) as [n'|]; cbn [ebind]; try tauto; [|congruence].
  destruct HG as (-> & _). generalize (del_id ids nd). induction (n_parsers n') as [|p l IHl]; intros ids1; [reflexivity|]. cbn [delgo]. rewrite IH. destruct (deleteIDs h' f ids1 (p_child p)); cbn [ebind]; auto.
Qed.
Lemma same_length h h' : Forall2 same_slot h h' -> List.length h = List.length h'.
Proof. induction 1; cbn; congruence. Qed.
Lemma setIDs_same h h' : Forall2 same_slot h h' -> forall f ids nd prefix, setIDs h f ids nd prefix = setIDs h' f ids nd prefix.
Proof.
  intros HF. assert (HL : heap_fuel h = heap_fuel h') by (unfold heap_fuel; rewrite (same_length _ _ HF); reflexivity).
  induction f as [|f IH]; intros ids nd prefix; [reflexivity|]. rewrite !setIDs_eq. pose proof (get_same h h' nd HF) as HG. destruct (get_node h nd) as [n|], (get_node h' nd) as [n'|]; cbn [ebind]; try tauto; [|congruence].
  destruct HG as (-> & _). rewrite HL. assert (HD : forall ids, deleteIDs h (heap_fuel h') ids nd = deleteIDs h' (heap_fuel h') ids nd) by (intros; apply deleteIDs_same; exact HF). rewrite HD.
  match goal with |- ebind ?x _ = _ => destruct x as [[pr ids1]|] end; cbn [ebind]; [|reflexivity]. revert ids1. induction (n_parsers n') as [|p l IHl]; intros ids1; [reflexivity|]. cbn [idgo]. destruct (field_id p); cbn [ebind]; [|reflexivity]. rewrite IH. destruct (setIDs h' f ids1 (p_child p) _); cbn [ebind]; auto.
Qed.
Lemma setAllIDs_same h h' : Forall2 same_slot h h' -> forall l ids, setAllIDs h ids l = setAllIDs h' ids l.
Proof.
  intros HF. assert (HL : heap_fuel h = heap_fuel h') by (unfold heap_fuel; rewrite (same_length _ _ HF); reflexivity).
  induction l as [|r l IH]; intros ids; [reflexivity|]. cbn [setAllIDs]. rewrite HL, (setIDs_same h h' HF). destruct (setIDs h' (heap_fuel h') ids r []); cbn [ebind]; auto.
Qed.
