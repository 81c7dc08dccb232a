(** * ToolFacts: the command line tool as a map over the lines. *)
From Verif Require Import Base Time Parsers Engine Pdag Samp Enc Tool ToolSpec EngineSpec BaseFacts EngineFacts EngineFacts2 EngineHist.
From Coq Require Import ZifyBool ZifyNat ZifyN.

(** ** Lines *)
Definition uncr (l : text) : text := match rev l with c :: _ => if ceq c (chr 13) then removelast l else l | [] => l end.
Lemma chop_snoc l c : chop (l ++ [c]) = uncr l.
Proof. unfold chop, uncr. rewrite removelast_last. reflexivity. Qed.
Lemma line_text_uncr l : line_text l (uncr l).
Proof.
  unfold uncr. destruct l as [|c l _] using rev_ind; [apply lt_plain; intros [|? ?]; discriminate|].
  rewrite rev_app_distr. cbn [rev app]. destruct (ceq c (chr 13)) eqn:E.
  - apply ceq_true in E as ->. rewrite removelast_last. apply lt_cr.
  - apply lt_plain. intros l' H. apply app_inj_tail in H as [_ ->]. rewrite ceq_refl in E. discriminate.
Qed.
Lemma line_text_fun l a : line_text l a -> a = uncr l.
Proof.
  intros H. unfold uncr. destruct H as [l|l H].
  - rewrite rev_app_distr. cbn [rev app]. rewrite ceq_refl, removelast_last. reflexivity.
  - destruct l as [|c l _] using rev_ind; auto. rewrite rev_app_distr. cbn [rev app]. destruct (ceq c (chr 13)) eqn:E; auto. apply ceq_true in E as ->. destruct (H l eq_refl).
Qed.
Lemma get_line_app l rest : is_line l -> get_line (l ++ chr 10 :: rest) = (l ++ [chr 10], rest).
Proof.
  induction l as [|c l IH]; intros H; [reflexivity|]. cbn [app get_line]. destruct (ceq c (chr 10)) eqn:E; [apply ceq_true in E as ->; destruct H; left; auto|].
  rewrite IH; auto. intros Hin. apply H. right. auto.
Qed.
Lemma get_line_end l : is_line l -> get_line l = (l, []).
Proof.
  induction l as [|c l IH]; intros H; [reflexivity|]. cbn [get_line]. destruct (ceq c (chr 10)) eqn:E; [apply ceq_true in E as ->; destruct H; left; auto|].
  rewrite IH; auto. intros Hin. apply H. right. auto.
Qed.
Lemma read_line_app l rest : is_line l -> read_line ((l ++ [chr 10]) ++ rest) = Some (uncr l, rest).
Proof.
  intros H. rewrite <- app_assoc. change ([chr 10] ++ rest) with (chr 10 :: rest). unfold read_line. rewrite get_line_app, chop_snoc; auto.
  destruct l; reflexivity.
Qed.
Lemma read_line_end l c : is_line (l ++ [c]) -> read_line (l ++ [c]) = Some (uncr l, []).
Proof. intros H. unfold read_line. rewrite get_line_end, chop_snoc; auto. destruct l; reflexivity. Qed.

(** ** One line *)
Section Run.
Variables (fuel : nat) (e : env) (s : settings) (cx0 : ctx).

Definition line_fun (nbr : N) (l : text) : er (fate * text) :=
  do* (_, o) := visible (normalize fuel e cx0 (cstr (uncr l)) []) in
  do* tagged := eventHasTag e o (s_tag s) in
  if tagged then
    match obj_get o (L "unparsed-data") with
    | None => if s_parsed s then do* out := outputEvent e s o (uncr l) in EOk (Parsed, out) else EOk (Parsed, [])
    | Some _ => if s_unparsed s then do* out := outputEvent e s (amendLineNbr s o nbr) (uncr l) in EOk (Unparsed, out) else EOk (Unparsed, [])
    end
  else EOk (Dropped, []).
Fixpoint run_lines (nbr : N) (ls : list text) : er (list (fate * text)) :=
  match ls with
  | [] => EOk []
  | l :: ls' => do* r := line_fun (N.succ nbr) l in do* rs := run_lines (N.succ nbr) ls' in EOk (r :: rs)
  end.
Definition count1 (k : counts) (f : fate) : counts :=
  match f with
  | Parsed => {| n_parsed := N.succ (n_parsed k); n_unparsed := n_unparsed k; n_wrong := n_wrong k |}
  | Unparsed => {| n_parsed := n_parsed k; n_unparsed := N.succ (n_unparsed k); n_wrong := n_wrong k |}
  | Dropped => {| n_parsed := n_parsed k; n_unparsed := n_unparsed k; n_wrong := N.succ (n_wrong k) |}
  end.
Definition vis3 {A B} (r : er (A * B * ctx)) : er (A * B) := match r with EOk (a, b, _) => EOk (a, b) | EUb u => EUb u end.

Lemma normalize_keeps cx m ok o cx' : normalize fuel e cx m [] = EOk (ok, o, cx') -> same_ctx cx cx'.
Proof. intros H. apply (history_same fuel e [(m, [])]). cbn [history]. rewrite H. reflexivity. Qed.
Lemma one_line_fun cx k nbr l : same_ctx cx0 cx ->
  match one_line fuel e s cx k nbr (uncr l) with
  | EOk (out, k', cx') => same_ctx cx0 cx' /\ exists f, line_fun nbr l = EOk (f, out) /\ k' = count1 k f
  | EUb u => line_fun nbr l = EUb u
  end.
Proof.
  intros HS. unfold one_line, line_fun. rewrite (normalize_same e cx0 cx (cstr (uncr l)) HS fuel []).
  destruct (normalize fuel e cx (cstr (uncr l)) []) as [[[ok o] cx']|u] eqn:En; cbn [ebind visible]; [|reflexivity].
  apply normalize_keeps in En. assert (HS' : same_ctx cx0 cx') by (eapply same_ctx_trans; eauto).
  destruct (eventHasTag e o (s_tag s)) as [tg|u]; cbn [ebind]; [|reflexivity].
  destruct tg; [|split; auto; exists Dropped; auto]. destruct (obj_get o (L "unparsed-data")).
  - destruct (s_unparsed s); [|split; auto; exists Unparsed; auto]. destruct (outputEvent e s (amendLineNbr s o nbr) (uncr l)); cbn [ebind]; [|reflexivity]. split; auto. exists Unparsed. auto.
  - destruct (s_parsed s); [|split; auto; exists Parsed; auto]. destruct (outputEvent e s o (uncr l)); cbn [ebind]; [|reflexivity]. split; auto. exists Parsed. auto.
Qed.

Definition total (k : counts) (rs : list (fate * text)) : counts := fold_left (fun k r => count1 k (fst r)) rs k.
Definition out_of (rs : list (fate * text)) : text := List.concat (map snd rs).

Lemma tool_loop_run : forall inp ls, tool_lines inp ls -> forall n cx k nbr, List.length inp < n -> same_ctx cx0 cx ->
  vis3 (tool_loop n fuel e s cx k nbr inp) = match run_lines nbr ls with EOk rs => EOk (out_of rs, total k rs) | EUb u => EUb u end.
Proof.
  assert (Hstep : forall l ls rest n cx k nbr inp, read_line inp = Some (uncr l, rest) ->
    (forall n cx k nbr, List.length rest < n -> same_ctx cx0 cx -> vis3 (tool_loop n fuel e s cx k nbr rest) = match run_lines nbr ls with EOk rs => EOk (out_of rs, total k rs) | EUb u => EUb u end) ->
    List.length rest < n -> same_ctx cx0 cx ->
    vis3 (tool_loop (S n) fuel e s cx k nbr inp) = match run_lines nbr (l :: ls) with EOk rs => EOk (out_of rs, total k rs) | EUb u => EUb u end).
  { intros l ls rest n cx k nbr inp HR IH Hn HS. cbn [tool_loop run_lines]. rewrite HR. pose proof (one_line_fun cx k (N.succ nbr) l HS) as H1.
    destruct (one_line fuel e s cx k (N.succ nbr) (uncr l)) as [[[out k'] cx']|u]; cbn [ebind].
    - destruct H1 as (HS' & f & -> & ->). cbn [ebind]. specialize (IH n cx' (count1 k f) (N.succ nbr) Hn HS').
      destruct (tool_loop n fuel e s cx' (count1 k f) (N.succ nbr) rest) as [[[out' k'] cx2]|u]; cbn [ebind vis3] in *; destruct (run_lines (N.succ nbr) ls) as [rs|u']; cbn [ebind]; try discriminate; [injection IH as -> ->; reflexivity|exact IH].
    - rewrite H1. reflexivity. }
  assert (HT : forall ls tail lt, Forall is_line ls ->
    (forall n cx k nbr, List.length tail < n -> same_ctx cx0 cx -> vis3 (tool_loop n fuel e s cx k nbr tail) = match run_lines nbr lt with EOk rs => EOk (out_of rs, total k rs) | EUb u => EUb u end) ->
    forall n cx k nbr, List.length (as_input ls ++ tail) < n -> same_ctx cx0 cx ->
    vis3 (tool_loop n fuel e s cx k nbr (as_input ls ++ tail)) = match run_lines nbr (ls ++ lt) with EOk rs => EOk (out_of rs, total k rs) | EUb u => EUb u end).
  { induction ls as [|l ls IH]; intros tail lt HL HB n cx k nbr Hn HS; [apply HB; auto|]. inversion HL as [|? ? Hl HLs]; subst.
    unfold as_input in *. cbn [flat_map app] in *. rewrite <- app_assoc in *. destruct n as [|n]; [lia|].
    eapply Hstep; [apply read_line_app; exact Hl|intros; apply IH; auto| |exact HS]. rewrite !app_length in Hn. cbn [List.length] in Hn. rewrite app_length. lia. }
  intros inp ls [ls0 HL|ls0 l c HL Hl] n cx k nbr Hn HS.
  - specialize (HT ls0 [] [] HL). rewrite !app_nil_r in HT. apply HT; auto. intros n0 cx1 k1 nbr1 Hn1 _. destruct n0; [cbn in Hn1; lia|]. reflexivity.
  - apply HT; auto. intros n0 cx1 k1 nbr1 Hn1 HS1. destruct n0 as [|n0]; [lia|]. rewrite app_length in Hn1. cbn [List.length] in Hn1.
    eapply Hstep; [apply read_line_end; exact Hl| |cbn; lia|exact HS1]. intros n2 cx2 k2 nbr2 Hn2 _. destruct n2; [cbn in Hn2; lia|]. reflexivity.
Qed.

(** ** What a line gives *)
Lemma find_tag_ok tag l b : find_tag e tag l = EOk b -> (b = true <-> exists x s0, In x l /\ jstring e x = Some s0 /\ cstr s0 = cstr tag).
Proof.
  revert b. induction l as [|x l IH]; intros b H; cbn [find_tag] in H.
  - injection H as <-. split; [discriminate|]. intros (x & _ & [] & _).
  - destruct (jstring e x) as [s0|] eqn:Ex; [|discriminate]. destruct (text_eqb (cstr tag) (cstr s0)) eqn:Et.
    + injection H as <-. split; auto. intros _. exists x, s0. split; [left; auto|]. split; auto. apply text_eqb_true in Et. auto.
    + apply IH in H. rewrite H. split.
      * intros (y & s1 & Hy & H1). exists y, s1. split; [right|]; auto.
      * intros (y & s1 & [<-|Hy] & H1 & H2); [|exists y, s1; auto]. rewrite Ex in H1. injection H1 as <-. rewrite H2, text_eqb_refl in Et. discriminate.
Qed.
Lemma eventHasTag_ok o tag b : eventHasTag e o tag = EOk b -> (b = true <-> has_tag e o tag).
Proof.
  unfold eventHasTag, has_tag. destruct tag as [t|]; [|intros [= <-]; split; auto].
  destruct (obj_get o (L "event.tags")) as [[]|] eqn:E; intros H; try (injection H as <-; split; [discriminate|]; intros (l0 & x & s1 & HX & _); discriminate HX).
  apply find_tag_ok in H. rewrite H. split.
  - intros (x & s0 & Hx & H1). exists l, x, s0. rewrite in_rev. auto.
  - intros (l' & x & s0 & [= <-] & Hx & H1). exists x, s0. rewrite <- in_rev. auto.
Qed.
Lemma cstr_drop_nul t : cstr (drop_nul t) = drop_nul t.
Proof. induction t as [|c t IH]; [reflexivity|]. cbn [drop_nul filter]. unfold drop_nul in *. cbn [filter]. destruct (negb (ceq c NUL)) eqn:E; auto. cbn [cstr]. apply negb_true_iff in E. rewrite E. f_equal. auto. Qed.
Lemma outputEvent_ok o msg out : outputEvent e s o msg = EOk out -> exists t, event_text e s o msg t /\ out = t ++ [chr 10].
Proof.
  unfold outputEvent, event_text. intros H. destruct (s_fmt s).
  - destruct (fmtEventToRFC5424 e (JObj o)) as [[r t]| |] eqn:E; cbn [ebind] in H; try discriminate. injection H as <-. exists (drop_nul t). rewrite cstr_drop_nul. eauto.
  - cbn [ebind] in H. injection H as <-. eauto.
  - destruct (fmtEventToXML e (JObj o)) as [[r t]| |] eqn:E; cbn [ebind] in H; try discriminate. injection H as <-. exists (drop_nul t). rewrite cstr_drop_nul. eauto.
  - destruct (fmtEventToCSV e (JObj o) (s_encFmt s)) as [[r t]| |] eqn:E; cbn [ebind] in H; try discriminate. injection H as <-. exists (drop_nul t). rewrite cstr_drop_nul. eauto.
  - cbn [ebind] in H. injection H as <-. eauto.
Qed.
Lemma line_fun_ok nbr l f out : line_fun nbr l = EOk (f, out) -> line_result fuel e s cx0 nbr l f out.
Proof.
  unfold line_fun, line_result. intros H. destruct (normalize fuel e cx0 (cstr (uncr l)) []) as [[[ok o] cx']|u] eqn:En; cbn [ebind visible] in H; [|discriminate].
  exists (uncr l), ok, o, cx'. split; [apply line_text_uncr|]. split; [exact En|].
  destruct (eventHasTag e o (s_tag s)) as [tg|u] eqn:Et; cbn [ebind] in H; [|discriminate]. apply eventHasTag_ok in Et.
  destruct tg; [|injection H as <- <-; split; auto; intros HT; apply Et in HT; discriminate]. destruct Et as [Et _]. specialize (Et eq_refl).
  destruct (obj_get o (L "unparsed-data")) eqn:Eo.
  - destruct (s_unparsed s).
    + apply ebind_ok in H as (t & H1 & [= <- <-]). apply outputEvent_ok in H1. split; auto. split; [discriminate|]. split; [intros _; exact H1|discriminate].
    + injection H as <- <-. split; auto. split; [discriminate|]. split; [discriminate|auto].
  - destruct (s_parsed s).
    + apply ebind_ok in H as (t & H1 & [= <- <-]). apply outputEvent_ok in H1. split; auto. split; [auto|]. split; [intros _; exact H1|discriminate].
    + injection H as <- <-. split; auto. split; [auto|]. split; [discriminate|auto].
Qed.
Lemma run_lines_ok ls : forall nbr rs, run_lines nbr ls = EOk rs -> results fuel e s cx0 nbr ls rs.
Proof.
  induction ls as [|l ls IH]; intros nbr rs H; cbn [run_lines] in H; [injection H as <-; constructor|].
  apply ebind_ok in H as ([f out] & H1 & H). apply ebind_ok in H as (rs' & H2 & [= <-]). rewrite <- N.add_1_r in *. constructor; [apply line_fun_ok; exact H1|apply IH; exact H2].
Qed.
Lemma run_lines_app a b : forall nbr, run_lines nbr (a ++ b) = do* ra := run_lines nbr a in do* rb := run_lines (nbr + N.of_nat (List.length a)) b in EOk (ra ++ rb).
Proof.
  induction a as [|l a IH]; intros nbr; cbn [app run_lines].
  - cbn [ebind]. replace (nbr + N.of_nat (List.length (@nil text)))%N with nbr by (cbn; lia). destruct (run_lines nbr b); reflexivity.
  - destruct (line_fun (N.succ nbr) l); cbn [ebind]; [|reflexivity]. rewrite IH.
    replace (nbr + N.of_nat (List.length (l :: a)))%N with (N.succ nbr + N.of_nat (List.length a))%N by (cbn [List.length]; lia).
    destruct (run_lines (N.succ nbr) a); cbn [ebind]; [|reflexivity]. destruct (run_lines _ b); reflexivity.
Qed.
End Run.

Lemma total_numbers rs : forall k, total k rs = {| n_parsed := n_parsed k + number Parsed rs; n_unparsed := n_unparsed k + number Unparsed rs; n_wrong := n_wrong k + number Dropped rs |}.
Proof.
  induction rs as [|[f t] rs IH]; intros k; unfold total in *; cbn [fold_left].
  - destruct k. unfold number. cbn. rewrite !N.add_0_r. reflexivity.
  - rewrite IH. unfold number. cbn [filter fst]. destruct f; cbn [same_fate count1 n_parsed n_unparsed n_wrong List.length]; f_equal; lia.
Qed.
