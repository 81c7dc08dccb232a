(** * Prop_Trap4: C87 -- lines that always make loading misbehave, whatever stands behind them. *)
From Verif Require Import LineSpec SimFacts LineFacts.
From Verif Require Import Base Time Parsers Engine Pdag Samp GraphSpec History SafetySpec TrapSpec BaseFacts LoadFacts LoadTop NormSafe TrapFacts TrapTop Prop_Graph Prop_Trap Prop_Trap2 Prop_Trap3 TestEnv.
From Coq Require Import ZifyBool ZifyNat ZifyN.

(** Annotations, all well-formed, and white space at the end. *)
Inductive spins : text -> Prop :=
| sp_blank : forall b, b <> [] -> Forall (fun c => isspace c = true) b -> spins b
| sp_op : forall b n v r, Forall (fun c => isspace c = true) b -> Forall (fun c => isFieldNameChar c = true) n -> ~ In """"%char v -> spins r ->
    spins (b ++ L "+" ++ n ++ L "=" ++ L """" ++ v ++ L """" ++ r).
(** Behind good lines, with a prefix or not: what is always fatal. *)
Inductive fatal (no_prefix : Prop) : text -> ub -> Prop :=
| fa_extend : forall u, no_prefix -> fatal no_prefix (L "extendprefix=" ++ u) NullDeref
| fa_include : fatal no_prefix (L "include=") OobRead
| fa_tag : forall a b, ~ In ":"%char a -> (a = [] \/ exists a', a = a' ++ L ",") -> fatal no_prefix (L "rule=" ++ a ++ L "," ++ b) NullDeref
(* such a line is read forever: no amount of fuel is enough *)
| fa_annotate : forall g b, g <> [] -> Forall (fun c => isFieldNameChar c = true) g -> spins b -> fatal no_prefix (L "annotate=" ++ g ++ L ":" ++ b) OutOfFuel.

(** the lines with their numbers *)
Definition real (l : text) : bool := match l with [] => false | c :: _ => negb (ceq c "#") end.
Fixpoint numbered (n : N) (ls : list text) : list (text * N) :=
  match ls with [] => [] | l :: ls' => (if real l then [(l, lineno n 1)] else []) ++ numbered (lineno n 1) ls' end.

Lemma count_same t : count "%" t = count_occ ascii_dec t "%"%char.
Proof.
  unfold count. induction t as [|c t IH]; [reflexivity|]. cbn [filter count_occ]. destruct (ascii_dec c "%"%char) as [->|Hc].
  - rewrite ceq_refl. cbn [List.length]. f_equal. exact IH.
  - destruct (ceq "%" c) eqn:E; [apply ceq_true in E; congruence|]. exact IH.
Qed.
Lemma no_feed_filter l : ~ In feed l -> filter (fun c => negb (ceq c feed)) l = l.
Proof.
  induction l as [|c t IH]; intros H; [reflexivity|]. cbn [filter]. destruct (ceq c feed) eqn:Ec; [apply ceq_true in Ec; subst c; destruct H; left; reflexivity|].
  cbn [negb]. f_equal. apply IH. intros Hi. apply H. right. exact Hi.
Qed.
Lemma count_feed l : ~ In feed l -> count LF l = 0.
Proof.
  unfold count. induction l as [|c t IH]; intros H; [reflexivity|]. cbn [filter]. destruct (ceq LF c) eqn:Ec; [apply ceq_true in Ec; destruct H; left; symmetry; exact Ec|].
  apply IH. intros Hi. apply H. right. exact Hi.
Qed.
Lemma text_rb isf : forall ls, Forall tidy ls -> (N.of_nat (List.length (text_of ls)) < 64 * 1024)%N -> forall n, rulebase isf (text_of ls) n (numbered n ls).
Proof.
  induction 1 as [|l ls (H1 & H2 & H3) _ IH]; intros HS n; [constructor|]. cbn [text_of numbered] in *. rewrite app_length in HS. cbn [List.length] in HS.
  assert (HI : forall m, rulebase isf (text_of ls) m (numbered m ls)) by (apply IH; lia).
  destruct l as [|c l]; cbn [real]; [apply rb_blank; apply HI|]. destruct (ceq c "#") eqn:Ec; cbn [negb app].
  - apply ceq_true in Ec. subst c. apply rb_comment; [intros Hi; apply H1; right; exact Hi|apply HI].
  - assert (HW : whole (c :: l)) by (destruct H3 as [H3|(x & E)]; [exact H3|injection E as -> _; discriminate Ec]).
    pose proof (rb_line isf (c :: l) (text_of ls) n (numbered (lineno n 1) ls)) as HR.
    change (LineSpec.one_line (c :: l)) with (filter (fun d => negb (ceq d feed)) (c :: l)) in HR. rewrite (no_feed_filter _ H1), (count_feed _ H1) in HR. cbn [Nat.add app] in HR. apply HR; [| |intros _ a b E; destruct H1; rewrite E; apply in_or_app; right; left; reflexivity|apply HI].
    + constructor.
      * exists c, l. split; [reflexivity|]. split; [intros ->; apply H1; left; reflexivity|intros ->; discriminate Ec].
      * intros a b E. destruct H1. rewrite E. apply in_or_app. right. left. reflexivity.
      * change (LineSpec.one_line (c :: l)) with (filter (fun d => negb (ceq d feed)) (c :: l)). rewrite (no_feed_filter _ H1). lia.
    + unfold LineSpec.in_field. rewrite count_same. exact HW.
Qed.
Lemma numbered_app a b : forall n, exists m, numbered n (a ++ b) = numbered n a ++ numbered m b.
Proof.
  induction a as [|l a IH]; intros n; [exists n; reflexivity|]. cbn [app numbered]. destruct (IH (lineno n 1)) as [m E]. exists m. rewrite E, app_assoc. reflexivity.
Qed.
Lemma process_app e load af a b : forall cx cx', process e load af cx a = EOk (cx', true) -> process e load af cx (a ++ b) = process e load af cx' b.
Proof.
  induction a as [|[l n] a IH]; intros cx cx' E; cbn [app process] in *; [injection E as <-; reflexivity|].
  destruct (processSamp e load af _ l) as [[c ok]|u]; cbn [ebind] in *; [|discriminate]. destruct ok; [apply IH; exact E|discriminate].
Qed.

(** What a line does. *)
Lemma samp_keeps e load af cx l cx' ok : good_line l -> processSamp e load af cx l = EOk (cx', ok) ->
  ok = true /\ ((forall p, l <> L "prefix=" ++ p) -> c_prefix cx' = c_prefix cx).
Proof.
  assert (HS : forall c r d tg c', addSampToTree e c r d tg = EOk c' -> c_prefix c' = c_prefix c).
  { intros c r d tg c' E. pose proof (addSamp_nodes e c r d tg) as H. rewrite E in H. cbn in H. rewrite H. reflexivity. }
  intros [|x|p Hp|g r Hg Hr|nm r Hn Hr] E.
  - injection E as <- <-. auto.
  - assert (HX : getLineType (L "#" ++ x) = None \/ exists t u, getLineType (L "#" ++ x) = Some ("#"%char :: t, u)).
    { right. unfold getLineType. change (L "#" ++ x) with ("#"%char :: x). cbn [scan]. change (ceq "#" "=") with false. cbn [negb firstn]. eauto. }
    unfold processSamp in E. destruct HX as [HX|(t & u & HX)]; rewrite HX in E; [injection E as <- <-; auto|].
    cbn in E. injection E as <- <-. auto.
  - injection E as <- <-. split; [reflexivity|]. intros H. destruct (H p eq_refl).
  - change (processSamp e load af cx (L "rule=" ++ g ++ L ":" ++ r)) with (do* c := processRule e cx (g ++ L ":" ++ r) in EOk (c, true)) in E.
    destruct (processRule e cx _) as [c|u] eqn:ER; cbn [ebind] in E; [|discriminate]. injection E as <- <-. split; [reflexivity|]. intros _.
    unfold processRule in ER. destruct (processTags _ _ _) as [[[tags [|d s]]|]|u]; cbn [ebind] in ER; try (injection ER as <-; reflexivity); [|discriminate]. eapply HS; eauto.
  - change (processSamp e load af cx (L "type=" ++ nm ++ L ":" ++ r)) with (do* c := processType e cx (nm ++ L ":" ++ r) in EOk (c, true)) in E.
    destruct (processType e cx _) as [c|u] eqn:ER; cbn [ebind] in E; [|discriminate]. injection E as <- <-. split; [reflexivity|]. intros _.
    unfold processType in ER. destruct (getTypeName _) as [[nm' [|d s]]|]; try (injection ER as <-; reflexivity).
    destruct (findType _ _ _) as [i|]; [|unfold newPDAG in ER]; apply HS in ER; exact ER.
Qed.
Lemma process_keeps e load af : forall ls, Forall (fun x => good_line (fst x)) ls -> forall cx cx' ok, process e load af cx ls = EOk (cx', ok) ->
  ok = true /\ ((forall x p, In x ls -> fst x <> L "prefix=" ++ p) -> c_prefix cx' = c_prefix cx).
Proof.
  induction 1 as [|[l n] ls Hl _ IH]; intros cx cx' ok E; cbn [process fst] in *; [injection E as <- <-; auto|].
  destruct (processSamp e load af _ l) as [[c ok1]|u] eqn:E1; cbn [ebind] in E; [|discriminate].
  apply samp_keeps in E1 as [-> H1]; [|exact Hl]. apply IH in E as [-> H2]. split; [reflexivity|]. intros HP. rewrite H2, H1; [reflexivity| |].
  - intros p. apply (HP (l, n) p). left. reflexivity.
  - intros x p Hx. apply (HP x p). right. exact Hx.
Qed.

Lemma tags_fatal : forall a b cur bk, ~ In ":"%char a -> ((a = [] /\ cur = None) \/ exists a', a = a' ++ L ",") -> processTags (a ++ L "," ++ b) cur bk = EUb NullDeref.
Proof.
  induction a as [|c a IH]; intros b cur bk Hc Ha.
  - destruct Ha as [[_ ->]|(a' & Ha)]; [reflexivity|destruct a'; discriminate Ha].
  - destruct Ha as [[Ha _]|(a' & Ha)]; [discriminate|].
    assert (HI : ~ In ":"%char a) by (intros H; apply Hc; right; exact H).
    assert (HA : (a = [] /\ c = ","%char) \/ exists a0, a = a0 ++ L ",").
    { destruct a' as [|x a']; injection Ha as -> Ha; [left; auto|right; eauto]. }
    cbn [app processTags]. destruct (ceq c ":") eqn:E1; [apply ceq_true in E1; subst c; destruct Hc; left; reflexivity|].
    destruct (ceq c ",") eqn:E2.
    + destruct cur as [s|]; [|reflexivity]. apply IH; [exact HI|]. destruct HA as [[-> _]|HA]; auto.
    + destruct HA as [[_ ->]|HA]; [discriminate E2|]. apply IH; auto.
Qed.
Lemma scan_stop p a c u : Forall (fun x => p x = true) a -> p c = false -> scan p (a ++ c :: u) = List.length a.
Proof. intros Ha Hc. induction Ha as [|x a Hx _ IH]; cbn [app scan List.length]; [rewrite Hc; reflexivity|rewrite Hx, IH; reflexivity]. Qed.
Lemma scan_full p a : Forall (fun x => p x = true) a -> scan p a = List.length a.
Proof. induction 1 as [|x a Hx _ IH]; cbn [scan List.length]; [reflexivity|rewrite Hx, IH; reflexivity]. Qed.
Lemma skip_len (a u : text) : skipn (List.length a) (a ++ u) = u.
Proof. induction a; [reflexivity|assumption]. Qed.
Lemma skip_one (a : text) c u : skipn (S (List.length a)) (a ++ c :: u) = u.
Proof. induction a; [reflexivity|assumption]. Qed.
Lemma spins_loop : forall f u ops, spins u -> annot_loop f u ops = EUb OutOfFuel.
Proof.
  induction f as [|f IH]; intros u ops Hu; [reflexivity|]. cbn [annot_loop]. pose proof Hu as HU. destruct Hu as [b Hb Hs|b n v r Hb Hn Hv Hr].
  - destruct b as [|c b]; [congruence|].
    replace (getAnnotationOp (c :: b)) with AStay; [apply IH; exact HU|]. unfold getAnnotationOp. rewrite (scan_full isspace _ Hs), skipn_all. reflexivity.
  - assert (HO : getAnnotationOp (b ++ L "+" ++ n ++ L "=" ++ L """" ++ v ++ L """" ++ r) = AOps (Some (AopAdd (opt_text n) (opt_text v))) r).
    { change (L "+" ++ n ++ L "=" ++ L """" ++ v ++ L """" ++ r) with ("+"%char :: n ++ "="%char :: """"%char :: v ++ """"%char :: r). unfold getAnnotationOp. rewrite (scan_stop isspace b "+"%char _ Hb eq_refl), skip_len.
      change (ceq "+" "#") with false. change (negb (ceq "+" "+")) with false. cbv iota. destruct (n ++ "="%char :: """"%char :: v ++ """"%char :: r) as [|x y] eqn:En; [destruct n; discriminate En|]. rewrite <- En. clear x y En.
      rewrite (scan_stop isFieldNameChar n "="%char _ Hn eq_refl), skip_len. cbv iota.
      rewrite firstn_app, Nat.sub_diag, firstn_all, app_nil_r. change (negb (ceq "=" "=")) with false. cbv iota. cbn [scan]. change (isspace """") with false. cbn [skipn]. change (negb (ceq """" """")) with false. cbv iota.
      assert (HV : Forall (fun c => negb (ceq c """") = true) v) by (apply Forall_forall; intros c Hc; destruct (ceq c """") eqn:Ec; [apply ceq_true in Ec; subst c; destruct (Hv Hc)|reflexivity]).
      rewrite (scan_stop (fun c => negb (ceq c """")) v """"%char r HV eq_refl). rewrite firstn_app, Nat.sub_diag, firstn_all, app_nil_r.
      exact (f_equal (AOps (Some (AopAdd (opt_text n) (opt_text v)))) (skip_one v """"%char r)). }
    destruct (b ++ L "+" ++ n ++ L "=" ++ L """" ++ v ++ L """" ++ r) as [|c u] eqn:E; [destruct b; discriminate E|]. rewrite HO. apply IH. exact Hr.
Qed.
Lemma samp_fatal e load af cx l u : fatal (c_prefix cx = None) l u -> processSamp e load af cx l = EUb u.
Proof.
  intros [v Hp| |a b Hc Ha|g b Hg Hn Hb].
  - change (processSamp e load af cx (L "extendprefix=" ++ v)) with (match c_prefix cx with None => EUb NullDeref | Some p => EOk (set_prefix cx (Some (p ++ v)), true) end). rewrite Hp. reflexivity.
  - reflexivity.
  - change (processSamp e load af cx (L "rule=" ++ a ++ L "," ++ b)) with (do* c := processRule e cx (a ++ L "," ++ b) in EOk (c, true)).
    unfold processRule. rewrite tags_fatal; [reflexivity|exact Hc|]. destruct Ha; auto.
  - change (processSamp e load af cx (L "annotate=" ++ g ++ L ":" ++ b)) with (do* c := processAnnotate af cx (g ++ ":"%char :: b) in EOk (c, true)).
    unfold processAnnotate. rewrite (scan_stop isFieldNameChar g ":"%char b Hn eq_refl), skip_len. cbn [scan]. change (isspace ":") with false. cbn [skipn].
    rewrite firstn_app, Nat.sub_diag, firstn_all, app_nil_r. destruct g as [|x g]; [congruence|]. change (negb (ceq ":" ":")) with false. cbv iota. rewrite (spins_loop _ _ _ Hb). reflexivity.
Qed.

(** Lines that can stand in such a text: no line feed, no byte 255, no NUL, and an even number
    of percent signs (fields are closed on the line), or a comment. *)
Definition clean (l : text) : Prop := ~ In feed l /\ ~ In (chr 255) l /\ ~ In NUL l /\ (Nat.even (count_occ ascii_dec l "%"%char) = true \/ exists c, l = L "#" ++ c).

(** The other direction: behind good lines, an extendprefix line where no prefix is set, an
    include line without a name, an empty tag and white space behind the annotations of a line
    are fatal, whatever lines follow. *)
Theorem C87_fatal_lines : forall e q cx, permutes q -> history e q cx -> texts_there cx -> (forall p, c_prefix cx = Some p -> simple_rule p) ->
  forall ls1 l ls2 u, good_rulebase ls1 -> Forall clean (l :: ls2) -> (N.of_nat (List.length (text_of (ls1 ++ l :: ls2))) < 64 * 1024)%N ->
  fatal (c_prefix cx = None /\ forall p, ~ In (L "prefix=" ++ p) ls1) l u ->
  forall fuel, List.length (text_of ls1) < fuel -> loadString e q fuel cx (text_of (ls1 ++ l :: ls2)) = EUb u.
Proof.
  intros e q cx HQ H HT HP ls1 l ls2 u HG HC HS HF fuel Hf.
  destruct (C87_good_lines_load e q cx HQ H HT HP ls1 HG fuel Hf) as (cx1 & ok1 & E & _). destruct HG as (HG & HN & HS1).
  assert (HT1 : Forall tidy ls1).
  { apply Forall_forall. intros x Hx. rewrite Forall_forall in HG, HN. destruct (HN _ Hx) as (N1 & N2 & _). split; [exact N1|]. split; [exact N2|]. apply good_whole. auto. }
  assert (HT2 : Forall tidy (ls1 ++ l :: ls2)).
  { apply Forall_app. split; [exact HT1|]. revert HC. apply Forall_impl. intros x (N1 & N2 & _ & N3). split; [exact N1|]. split; [exact N2|]. destruct N3 as [N3|N3]; [left|right; exact N3]. unfold whole. rewrite <- Nat.negb_even, N3. reflexivity. }
  assert (HZ : forall ls, (forall x, In x ls -> ~ In NUL x) -> cstr (text_of ls) = text_of ls).
  { intros ls Hls. apply cstr_nonul. induction ls as [|y ls IH]; [intros []|]. cbn [text_of]. intros Hi. apply in_app_or in Hi as [Hi|[Hi|Hi]]; [exact (Hls y (or_introl eq_refl) Hi)|discriminate Hi|]. apply IH; [|exact Hi]. intros x Hx. apply Hls. right. exact Hx. }
  assert (HN1 : forall x, In x ls1 -> ~ In NUL x) by (intros x Hx; rewrite Forall_forall in HN; apply (HN _ Hx)).
  assert (HN2 : forall x, In x (ls1 ++ l :: ls2) -> ~ In NUL x).
  { intros x Hx. apply in_app_or in Hx as [Hx|Hx]; [auto|]. rewrite Forall_forall in HC. apply (HC _ Hx). }
  assert (HE : forall ls, Forall tidy ls -> no_eof e false (text_of ls)).
  { intros ls Hls c Hc. unfold is_eof_char. destruct (ceq c (chr 255)) eqn:Ec; [|rewrite andb_false_r; reflexivity]. exfalso. apply ceq_true in Ec. subst c.
    induction Hls as [|y ls (_ & Y & _) _ IH]; [destruct Hc|]. cbn [text_of] in Hc. apply in_app_or in Hc as [Hc|[Hc|Hc]]; [exact (Y Hc)|discriminate Hc|exact (IH Hc)]. }
  unfold loadString in *. rewrite (HZ _ HN1) in E. rewrite (HZ _ HN2).
  set (cx0 := set_pos (set_version cx 2) (L "--NO-FILE--") 0) in *.
  assert (HL : forall ls, Forall tidy ls -> (N.of_nat (List.length (text_of ls)) < 64 * 1024)%N ->
    rsim like (load_lines e (loadSamples e q fuel 2) fuel (S (List.length (text_of ls))) false cx0 (text_of ls)) (process e (loadSamples e q fuel 2) fuel cx0 (numbered 0 ls))).
  { intros ls Hls HSz. apply load_lines_process; [apply text_rb; assumption|reflexivity|apply HE; exact Hls|lia]. }
  pose proof (HL ls1 HT1 HS1) as HL1. pose proof (HL _ HT2 HS) as HL2.
  destruct (load_lines e (loadSamples e q fuel 2) fuel (S (List.length (text_of ls1))) false cx0 (text_of ls1)) as [[cm okm]|x]; cbn [ebind] in E; [|discriminate].
  destruct (process e (loadSamples e q fuel 2) fuel cx0 (numbered 0 ls1)) as [[cm' okm']|x] eqn:EP; cbn [rsim] in HL1; [|destruct HL1].
  assert (HNum : forall ls n x, In x (numbered n ls) -> In (fst x) ls).
  { induction ls as [|y ls IH]; intros n x Hx; [destruct Hx|]. cbn [numbered] in Hx. apply in_app_or in Hx as [Hx|Hx]; [|right; eapply IH; exact Hx]. destruct (real y); [|destruct Hx]. destruct Hx as [<-|[]]. left. reflexivity. }
  assert (HK : okm' = true /\ ((forall x p, In x (numbered 0 ls1) -> fst x <> L "prefix=" ++ p) -> c_prefix cm' = c_prefix cx0)).
  { eapply process_keeps; [|exact EP]. apply Forall_forall. intros x Hx. rewrite Forall_forall in HG. apply HG. eapply HNum. exact Hx. }
  destruct HK as [-> HK].
  destruct (numbered_app ls1 (l :: ls2) 0) as [m Em]. rewrite Em in HL2. rewrite (process_app _ _ _ _ _ _ _ EP) in HL2.
  cbn [numbered] in HL2. assert (HR : real l = true) by (destruct HF; reflexivity). rewrite HR in HL2. cbn [app process] in HL2.
  rewrite (samp_fatal e (loadSamples e q fuel 2) fuel _ l u) in HL2.
  - cbn [ebind] in HL2. destruct (load_lines e _ fuel _ false cx0 (text_of (ls1 ++ l :: ls2))) as [x|x]; cbn [rsim] in HL2; [destruct HL2|]. subst x. reflexivity.
  - cbn [c_prefix set_pos]. destruct HF as [v [Hp1 Hp2]| |a b Ha Hb|g b Hg Hn Hb]; [|apply fa_include|apply fa_tag; assumption|apply fa_annotate; assumption]. apply fa_extend.
    rewrite HK; [exact Hp1|]. intros x p Hx HX. apply HNum in Hx. rewrite HX in Hx. exact (Hp2 p Hx).
Qed.
Print Assumptions C87_fatal_lines.

(** The same in a file, behind the line "version=2". *)
Theorem C87_fatal_lines_file : forall e q cx, permutes q -> history e q cx -> texts_there cx -> (forall p, c_prefix cx = Some p -> simple_rule p) ->
  (c_version cx = 0 \/ c_version cx = 2)%N ->
  forall ls1 l ls2 u, good_rulebase ls1 -> Forall clean (l :: ls2) -> (N.of_nat (List.length (text_of (ls1 ++ l :: ls2))) < 64 * 1024)%N ->
  fatal (c_prefix cx = None /\ forall p, ~ In (L "prefix=" ++ p) ls1) l u ->
  forall f, files e f = Some (text_of (L "version=2" :: ls1 ++ l :: ls2)) ->
  forall fuel, List.length (text_of ls1) < fuel -> loadFile e q (S fuel) cx f = EUb u.
Proof.
  intros e q cx HQ H HT HP HV ls1 l ls2 u HR1 HC HS HF f EF fuel Hf.
  pose proof (good_no_trap e (c_prefix cx) ls1 HP HR1) as HX. pose proof (good_fits e ls1 fuel HR1 Hf) as HFit.
  destruct HR1 as (HG & HN & HS1).
  assert (HT1 : Forall tidy ls1).
  { apply Forall_forall. intros x Hx. rewrite Forall_forall in HG, HN. destruct (HN _ Hx) as (N1 & N2 & _). split; [exact N1|]. split; [exact N2|]. apply good_whole. auto. }
  assert (HT2 : Forall tidy (ls1 ++ l :: ls2)).
  { apply Forall_app. split; [exact HT1|]. revert HC. apply Forall_impl. intros x (N1 & N2 & _ & N3). split; [exact N1|]. split; [exact N2|]. destruct N3 as [N3|N3]; [left|right; exact N3]. unfold whole. rewrite <- Nat.negb_even, N3. reflexivity. }
  set (cx0 := set_pos (set_version (set_pos cx f 0) 2) f 1).
  assert (HL : forall ls k, Forall tidy ls -> (N.of_nat (List.length (text_of ls)) < 64 * 1024)%N -> List.length (text_of ls) < k ->
    rsim like (load_lines e (loadSamples e q fuel 2) fuel k true cx0 (text_of ls)) (process e (loadSamples e q fuel 2) fuel cx0 (numbered 1 ls))).
  { intros ls k Hls HSz Hk. apply load_lines_process; [apply text_rb; assumption|reflexivity| |exact Hk]. intros c _. reflexivity. }
  assert (HM : tpost (fun _ => False) (fun _ => True) (load_lines e (loadSamples e q fuel 2) fuel (S (List.length (text_of ls1))) true cx0 (text_of ls1))).
  { pose proof HT as HD. apply texts_all in HD.
    pose proof (top_trap e q (text_of ls1) (c_prefix cx) fuel HQ true (S (List.length (text_of ls1))) cx0 (history_safe _ _ _ HQ H) (or_introl HD) eq_refl eq_refl ltac:(lia)) as HH.
    destruct (load_lines e (loadSamples e q fuel 2) fuel (S (List.length (text_of ls1))) true cx0 (text_of ls1)) as [x|x]; cbn [ebind tpost] in *; [exact I|].
    destruct HH as [HH|[_ HH]]; [exact (HX _ HH)|exact (HH HFit)]. }
  pose proof (HL ls1 _ HT1 HS1 (Nat.lt_succ_diag_r _)) as HL1.
  destruct (load_lines e (loadSamples e q fuel 2) fuel (S (List.length (text_of ls1))) true cx0 (text_of ls1)) as [[cm okm]|x]; [|destruct HM].
  destruct (process e (loadSamples e q fuel 2) fuel cx0 (numbered 1 ls1)) as [[cm' okm']|x] eqn:EP; cbn [rsim] in HL1; [|destruct HL1].
  assert (HNum : forall ls n x, In x (numbered n ls) -> In (fst x) ls).
  { induction ls as [|y ls IH]; intros n x Hx; [destruct Hx|]. cbn [numbered] in Hx. apply in_app_or in Hx as [Hx|Hx]; [|right; eapply IH; exact Hx]. destruct (real y); [|destruct Hx]. destruct Hx as [<-|[]]. left. reflexivity. }
  assert (HK : okm' = true /\ ((forall x p, In x (numbered 1 ls1) -> fst x <> L "prefix=" ++ p) -> c_prefix cm' = c_prefix cx0)).
  { eapply process_keeps; [|exact EP]. apply Forall_forall. intros x Hx. rewrite Forall_forall in HG. apply HG. eapply HNum. exact Hx. }
  destruct HK as [-> HK].
  set (k := S (List.length (text_of (L "version=2" :: ls1 ++ l :: ls2)))).
  assert (HL2 : rsim like (load_lines e (loadSamples e q fuel 2) fuel k true cx0 (text_of (ls1 ++ l :: ls2))) (process e (loadSamples e q fuel 2) fuel cx0 (numbered 1 (ls1 ++ l :: ls2)))).
  { apply HL; [exact HT2|exact HS|]. unfold k. change (text_of (L "version=2" :: ls1 ++ l :: ls2)) with (L "version=2" ++ feed :: text_of (ls1 ++ l :: ls2)). rewrite app_length. cbn [List.length]. lia. }
  destruct (numbered_app ls1 (l :: ls2) 1) as [m Em]. rewrite Em in HL2. rewrite (process_app _ _ _ _ _ _ _ EP) in HL2.
  cbn [numbered] in HL2. assert (HR : real l = true) by (destruct HF; reflexivity). rewrite HR in HL2. cbn [app process] in HL2.
  rewrite (samp_fatal e (loadSamples e q fuel 2) fuel _ l u) in HL2.
  - cbn [ebind] in HL2. unfold loadFile. cbn [loadSamples]. rewrite EF.
    change (text_of (L "version=2" :: ls1 ++ l :: ls2)) with ("v"%char :: L "ersion=2" ++ feed :: text_of (ls1 ++ l :: ls2)) at 1. cbv iota.
    assert (H10 : firstn 10 (text_of (L "version=2" :: ls1 ++ l :: ls2)) = version2) by reflexivity.
    change ("v"%char :: L "ersion=2" ++ feed :: text_of (ls1 ++ l :: ls2)) with (text_of (L "version=2" :: ls1 ++ l :: ls2)).
    rewrite H10, text_eqb_refl. change (c_version (set_pos cx f 0)) with (c_version cx).
    replace (negb (N.eqb (c_version cx) 0) && negb (N.eqb 2 (c_version cx)))%bool with false by (destruct HV as [-> | ->]; reflexivity). cbv iota. cbn [negb].
    change (skipn 10 (text_of (L "version=2" :: ls1 ++ l :: ls2))) with (text_of (ls1 ++ l :: ls2)).
    fold cx0. fold k.
    destruct (load_lines e (loadSamples e q fuel 2) fuel k true cx0 (text_of (ls1 ++ l :: ls2))) as [x|x]; cbn [rsim] in HL2; [destruct HL2|]. subst x. reflexivity.
  - cbn [c_prefix set_pos]. destruct HF as [v [Hp1 Hp2]| |a b Ha Hb|g b Hg Hn Hb]; [|apply fa_include|apply fa_tag; assumption|apply fa_annotate; assumption]. apply fa_extend.
    rewrite HK; [exact Hp1|]. intros x p Hx HXp. apply HNum in Hx. rewrite HXp in Hx. exact (Hp2 p Hx).
Qed.
Print Assumptions C87_fatal_lines_file.

(** Cases *)
Theorem C87_fatal_meets : forall fuel, 150 < fuel ->
  loadString env0 isort fuel (initCtx no_opts) (text_of (ex_lines ++ L "rule=a,,b:c" :: [L "rule=:%x:word%"; L "#100%"])) = EUb NullDeref /\
  loadString env0 isort fuel (initCtx no_opts) (text_of (ex_lines ++ L "include=" :: [])) = EUb OobRead /\
  loadString env0 isort fuel (initCtx no_opts) (text_of ([] ++ L "extendprefix=a" :: [L "rule=:b"])) = EUb NullDeref /\
  loadString env0 isort fuel (initCtx no_opts) (text_of (ex_lines ++ L "annotate=t: +x=""y"" " :: [L "rule=t:b"])) = EUb OutOfFuel.
Proof.
  intros fuel Hf. assert (HQ : permutes isort) by exact isort_permutes.
  assert (HG0 : good_rulebase []) by (split; [constructor|split; [constructor|reflexivity]]).
  assert (HC : forall l, Forall (fun c => c <> feed /\ c <> chr 255 /\ c <> NUL) l -> (Nat.even (count_occ ascii_dec l "%"%char) = true \/ exists c, l = L "#" ++ c) -> clean l).
  { intros l Hl Hp. rewrite Forall_forall in Hl. split; [intros Hi; apply (proj1 (Hl _ Hi)); reflexivity|]. split; [intros Hi; apply (proj1 (proj2 (Hl _ Hi))); reflexivity|]. split; [intros Hi; apply (proj2 (proj2 (Hl _ Hi))); reflexivity|exact Hp]. }
  assert (HF : forall l, forallb (fun c => negb (ceq c feed) && negb (ceq c (chr 255)) && negb (ceq c NUL))%bool l = true -> Forall (fun c => c <> feed /\ c <> chr 255 /\ c <> NUL) l).
  { intros l Hl. apply Forall_forall. intros c Hc. rewrite forallb_forall in Hl. specialize (Hl c Hc). apply andb_prop in Hl as [Hl H3]. apply andb_prop in Hl as [H1 H2].
    split; [intros ->; discriminate H1|]. split; [intros ->; discriminate H2|intros ->; discriminate H3]. }
  split; [|split; [|split]].
  - eapply C87_fatal_lines; [exact HQ|apply h_init|apply C87_texts_init|discriminate|apply C87_good_lines_meets| |reflexivity| |].
    + constructor; [apply HC; [apply HF; reflexivity|left; reflexivity]|]. constructor; [apply HC; [apply HF; reflexivity|left; reflexivity]|]. constructor; [|constructor].
      apply HC; [apply HF; reflexivity|right; exists (L "100%"); reflexivity].
    + apply (fa_tag _ (L "a,") (L "b:c")).
      * intros H. repeat (destruct H as [H|H]; [discriminate H|]). exact H.
      * right. exists (L "a"). reflexivity.
    + eapply Nat.le_lt_trans; [|exact Hf]. vm_compute. repeat constructor.
  - eapply C87_fatal_lines; [exact HQ|apply h_init|apply C87_texts_init|discriminate|apply C87_good_lines_meets| |reflexivity|apply fa_include|].
    + constructor; [apply HC; [apply HF; reflexivity|left; reflexivity]|constructor].
    + eapply Nat.le_lt_trans; [|exact Hf]. vm_compute. repeat constructor.
  - eapply C87_fatal_lines; [exact HQ|apply h_init|apply C87_texts_init|discriminate|exact HG0| |reflexivity| |].
    + constructor; [apply HC; [apply HF; reflexivity|left; reflexivity]|]. constructor; [apply HC; [apply HF; reflexivity|left; reflexivity]|constructor].
    + apply fa_extend. split; [reflexivity|]. intros p [].
    + eapply Nat.le_lt_trans; [|exact Hf]. vm_compute. repeat constructor.
  - eapply C87_fatal_lines; [exact HQ|apply h_init|apply C87_texts_init|discriminate|apply C87_good_lines_meets| |reflexivity| |].
    + constructor; [apply HC; [apply HF; reflexivity|left; reflexivity]|]. constructor; [apply HC; [apply HF; reflexivity|left; reflexivity]|constructor].
    + apply (fa_annotate _ (L "t") (L " +x=""y"" ")); [discriminate|repeat constructor|]. apply (sp_op (L " ") (L "x") (L "y") (L " ")); [repeat constructor|repeat constructor| |].
      * intros [H|[]]. discriminate H.
      * apply sp_blank; [discriminate|repeat constructor].
    + eapply Nat.le_lt_trans; [|exact Hf]. vm_compute. repeat constructor.
Qed.
Print Assumptions C87_fatal_meets.
Definition env_file : env := {| wraps := wraps env0; asserts_on := true; char_signed := true; cur_year := cur_year env0; json_tok := json_tok env0; json_show := json_show env0;
  json_num := json_num env0; json_erroff := json_erroff env0; unescape := unescape env0;
  files := fun f => if text_eqb f (L "r") then Some (text_of (L "version=2" :: ex_lines ++ L "rule=a,,b:c" :: [L "rule=:x"])) else None |}.
Example C87_fatal_file_ex : loadFile env_file isort 200 (initCtx no_opts) (L "r") = EUb NullDeref.
Proof.
  apply (C87_fatal_lines_file env_file isort (initCtx no_opts) isort_permutes (h_init _ _ _) (C87_texts_init _) ltac:(discriminate) (or_introl eq_refl)
    ex_lines (L "rule=a,,b:c") [L "rule=:x"] NullDeref); [apply C87_good_lines_meets| |reflexivity| |reflexivity|].
  - assert (HC : forall l, forallb (fun c => negb (ceq c feed) && negb (ceq c (chr 255)) && negb (ceq c NUL))%bool l = true -> Nat.even (count_occ ascii_dec l "%"%char) = true -> clean l).
    { intros l Hl He. assert (X : forall c, (negb (ceq c feed) && negb (ceq c (chr 255)) && negb (ceq c NUL))%bool = false -> ~ In c l) by (intros c Hc Hi; rewrite forallb_forall in Hl; rewrite (Hl c Hi) in Hc; discriminate).
      split; [apply X; reflexivity|]. split; [apply X; reflexivity|]. split; [apply X; reflexivity|left; exact He]. }
    constructor; [apply HC; reflexivity|]. constructor; [apply HC; reflexivity|constructor].
  - apply (fa_tag _ (L "a,") (L "b:c")); [intros H; repeat (destruct H as [H|H]; [discriminate H|]); exact H|right; exists (L "a"); reflexivity].
  - vm_compute. repeat constructor.
Qed.
