(** * TypeFacts2: the type string, priorities, unknown types. *)
From Verif Require Import Base BaseFacts Parsers Engine Pdag Samp RuleSpec BuiltSpec TypeSpec FieldFacts DateFacts FieldFacts10 EngineFacts2 TypeFacts.

Lemma caseeq_iff a b : caseeq a (L b) = true <-> same_but_case a b.
Proof. unfold caseeq, same_but_case. split; [apply text_eqb_true|intros ->; apply text_eqb_refl]. Qed.
Lemma caseeq_not a b : caseeq a (L b) = false <-> ~ same_but_case a b.
Proof. rewrite <- caseeq_iff. destruct (caseeq a (L b)); split; congruence. Qed.
Lemma not_both a x y : same_but_case a x -> text_eqb (map tolower (L x)) (map tolower (L y)) = false -> ~ same_but_case a y.
Proof. unfold same_but_case. intros -> H E. rewrite E in H. rewrite text_eqb_refl in H. discriminate. Qed.

Definition ci_distinct (l : fields) : Prop := NoDup (map (fun kv => map tolower (fst kv)) l).
Lemma given_skip k v l o x : ~ same_but_case k o -> (given ((k, v) :: l) o x <-> given l o x).
Proof. intros H. split; intros (k' & HI & HS); exists k'; [destruct HI as [[= <- <-]|HI]; [congruence|auto]|split; [right|]; auto]. Qed.
Lemma not_given_skip k v l o : ~ same_but_case k o -> (not_given ((k, v) :: l) o <-> not_given l o).
Proof. intros H. split; intros HN k' v' HI; [apply (HN k' v'); right; auto|destruct HI as [[= <- <-]|HI]; [exact H|eapply HN; eauto]]. Qed.
Lemma hit_rest k v l o : ci_distinct ((k, v) :: l) -> same_but_case k o -> not_given l o.
Proof. intros HD HS k' v' HI HS'. unfold ci_distinct in HD. cbn [map fst] in HD. inversion HD; subst. apply H1. apply in_map_iff. exists (k', v'). split; auto. cbn [fst]. unfold same_but_case in *. congruence. Qed.
Lemma hit_given k v l o x : ci_distinct ((k, v) :: l) -> same_but_case k o -> given ((k, v) :: l) o x -> x = v.
Proof. intros HD HS (k' & [[= <- <-]|HI] & HS'); auto. exfalso. eapply (hit_rest k v l o HD HS); eauto. Qed.
Lemma choice_skip {A} k v l o W (d : A) a : ~ same_but_case k o -> (choice ((k, v) :: l) o W d a <-> choice l o W d a).
Proof.
  intros H. split; intros [HN|s w a' HG H1 H2 H3].
  - apply ch_none. rewrite not_given_skip in HN by auto. exact HN.
  - apply given_skip in HG; auto. eapply ch_word; eauto.
  - apply ch_none. rewrite not_given_skip by auto. exact HN.
  - eapply ch_word; eauto. apply given_skip; auto.
Qed.
Lemma choice_hit {A} k v l o W (d : A) a : ci_distinct ((k, v) :: l) -> same_but_case k o -> choice ((k, v) :: l) o W d a ->
  exists s w, v = JStr s /\ ~ In NUL s /\ same_but_case s w /\ In (w, a) W.
Proof.
  intros HD HS [HN|s w a' HG H1 H2 H3].
  - exfalso. eapply HN; [left; reflexivity|exact HS].
  - apply (hit_given _ _ _ _ _ HD HS) in HG. exists s, w. auto.
Qed.
(** the option as given by a list of members, [d] before *)
Inductive quote_char' (l : fields) (k : string) (d : ascii) : ascii -> Prop :=
| qc'_none : not_given l k -> quote_char' l k d d
| qc'_char : forall c, given l k (JStr [c]) -> c <> NUL -> quote_char' l k d c.
Lemma quote_char_same l k c : quote_char' l k """" c <-> quote_char l k c.
Proof. split; intros []; constructor; auto. Qed.
Lemma quote_skip k v l o d a : ~ same_but_case k o -> (quote_char' ((k, v) :: l) o d a <-> quote_char' l o d a).
Proof.
  intros H. split; intros [HN|c HG Hc].
  - apply qc'_none. rewrite not_given_skip in HN by auto. exact HN.
  - apply given_skip in HG; auto. apply qc'_char; auto.
  - apply qc'_none. rewrite not_given_skip by auto. exact HN.
  - apply qc'_char; auto. apply given_skip; auto.
Qed.
Lemma quote_hit k v l o d a : ci_distinct ((k, v) :: l) -> same_but_case k o -> quote_char' ((k, v) :: l) o d a -> v = JStr [a] /\ a <> NUL.
Proof.
  intros HD HS [HN|c HG Hc].
  - exfalso. eapply HN; [left; reflexivity|exact HS].
  - apply (hit_given _ _ _ _ _ HD HS) in HG. auto.
Qed.

Section Env.
Variable e : env.

(** ** Permitted characters *)
Lemma add_perm_ok p s : ascii7 s -> add_perm e p s = EOk (p ++ s).
Proof.
  intros H. unfold add_perm. destruct (existsb (fun c => N.leb 128 (code c)) s) eqn:E; [|rewrite andb_false_r; reflexivity].
  apply existsb_exists in E as (c & Hc & Hle). apply N.leb_le in Hle. destruct (H c Hc). lia.
Qed.
Lemma ascii7_nul s : ascii7 s -> ~ In NUL s.
Proof. intros H Hin. destruct (H _ Hin). congruence. Qed.
Definition class_check (s : text) (c : ascii) : bool := mem s c.
Lemma chars_list (P : ascii -> bool) s : forallb (fun n => Bool.eqb (P (chr (N.of_nat n))) (existsb (ceq (chr (N.of_nat n))) s)) (seq 0 256) = true -> forall c, In c s <-> P c = true.
Proof.
  intros H c. rewrite forallb_forall in H. assert (Hc : chr (N.of_nat (nat_of_ascii c)) = c) by (unfold chr, nat_of_ascii; rewrite N2Nat.id; apply ascii_N_embedding).
  specialize (H (nat_of_ascii c)). rewrite Hc in H. rewrite eqb_true_iff in H. rewrite H.
  - rewrite existsb_exists. split; [intros Hin; exists c; split; auto; apply ceq_refl|intros (x & Hx & E); apply ceq_true in E; subst; auto].
  - apply in_seq. pose proof (nat_ascii_bounded c). lia.
Qed.
Lemma class_chars_ok s c : In c (class_chars s) <-> class_has s c.
Proof.
  unfold class_chars. split.
  - destruct (caseeq s (L "digit")) eqn:E1; [apply caseeq_iff in E1; intros H; apply cl_digit; auto; revert H; apply chars_list; vm_compute; reflexivity|].
    destruct (caseeq s (L "hexdigit")) eqn:E2; [apply caseeq_iff in E2; intros H; apply cl_hexdigit; auto; revert H; apply chars_list; vm_compute; reflexivity|].
    destruct (caseeq s (L "alpha")) eqn:E3; [apply caseeq_iff in E3; intros H; apply cl_alpha; auto; revert H; apply chars_list; vm_compute; reflexivity|].
    destruct (caseeq s (L "alnum")) eqn:E4; [apply caseeq_iff in E4; intros H; apply cl_alnum; auto; revert H; apply chars_list; vm_compute; reflexivity|intros []].
  - intros [s' c' HS HC|s' c' HS HC|s' c' HS HC|s' c' HS HC].
    + pose proof HS as HS'. apply caseeq_iff in HS' as ->. revert HC. apply chars_list; vm_compute; reflexivity.
    + rewrite (proj2 (caseeq_not s' "digit")) by (eapply not_both; [exact HS|reflexivity]). pose proof HS as HS'. apply caseeq_iff in HS' as ->. revert HC. apply chars_list; vm_compute; reflexivity.
    + rewrite (proj2 (caseeq_not s' "digit")), (proj2 (caseeq_not s' "hexdigit")) by (eapply not_both; [exact HS|reflexivity]). pose proof HS as HS'. apply caseeq_iff in HS' as ->. revert HC. apply chars_list; vm_compute; reflexivity.
    + rewrite (proj2 (caseeq_not s' "digit")), (proj2 (caseeq_not s' "hexdigit")), (proj2 (caseeq_not s' "alpha")) by (eapply not_both; [exact HS|reflexivity]). pose proof HS as HS'. apply caseeq_iff in HS' as ->. revert HC. apply chars_list; vm_compute; reflexivity.
Qed.
Lemma class_ascii7 s : ascii7 (class_chars s).
Proof.
  intros c Hc. apply class_chars_ok in Hc.
  assert (H : isalnum c = true \/ isxdigit c = true).
  { destruct Hc as [? ? ? H|? ? ? H|? ? ? H|? ? ? H]; [left; unfold isalnum; rewrite H, orb_true_r; auto|right; auto|left; unfold isalnum; rewrite H; auto|left; auto]. }
  clear Hc. revert c H. assert (HB : forallb (fun n => (negb (isalnum (chr (N.of_nat n)) || isxdigit (chr (N.of_nat n))) || (N.ltb (code (chr (N.of_nat n))) 128 && negb (ceq (chr (N.of_nat n)) NUL)))%bool) (seq 0 256) = true) by (vm_compute; reflexivity).
  intros c H. rewrite forallb_forall in HB. specialize (HB (nat_of_ascii c)). assert (Hc : chr (N.of_nat (nat_of_ascii c)) = c) by (unfold chr, nat_of_ascii; rewrite N2Nat.id; apply ascii_N_embedding). rewrite Hc in HB.
  assert (Hin : In (nat_of_ascii c) (seq 0 256)) by (apply in_seq; pose proof (nat_ascii_bounded c); lia). specialize (HB Hin).
  assert (E : (isalnum c || isxdigit c)%bool = true) by (destruct H as [-> | ->]; [reflexivity|apply orb_true_r]). rewrite E in HB. cbn [negb orb] in HB. apply andb_true_iff in HB as [H1 H2]. apply N.ltb_lt in H1. split; auto.
  intros ->. discriminate.
Qed.

Definition member_has (m : fields) (c : ascii) : Prop :=
  (exists k s, In (k, JStr s) m /\ same_but_case k "chars" /\ In c s) \/ (exists k s, In (k, JStr s) m /\ same_but_case k "class" /\ class_has s c).
Lemma member_has_cons k s m c : member_has ((k, JStr s) :: m) c <-> ((same_but_case k "chars" /\ In c s) \/ (same_but_case k "class" /\ class_has s c)) \/ member_has m c.
Proof.
  unfold member_has. split.
  - intros [(k' & s' & [[= <- <-]|H] & H1 & H2)|(k' & s' & [[= <- <-]|H] & H1 & H2)]; [left; left; auto|right; left; eauto|left; right; auto|right; right; eauto].
  - intros [[[H1 H2]|[H1 H2]]|[(k' & s' & H & H1 & H2)|(k' & s' & H & H1 & H2)]]; [left|right|left|right]; eexists _, _; (split; [|split; eauto]); cbn; eauto.
Qed.
Lemma perm_members_ok m : (forall k y, In (k, y) m -> exists s, y = JStr s /\ ascii7 s) -> forall p, exists p', perm_members e m p = EOk p' /\ forall c, In c p' <-> In c p \/ member_has m c.
Proof.
  induction m as [|[k y] m IH]; intros HG p.
  - exists p. split; [reflexivity|]. intros c. split; auto. intros [H|[(? & ? & [] & _)|(? & ? & [] & _)]]; auto.
  - destruct (HG k y (or_introl eq_refl)) as (s & -> & Hs). assert (HG' : forall k y, In (k, y) m -> exists s, y = JStr s /\ ascii7 s) by (intros; apply (HG k0); right; auto).
    cbn [perm_members]. destruct (caseeq k (L "chars")) eqn:E1.
    + apply caseeq_iff in E1. cbn [jstring]. rewrite cstr_id by (apply ascii7_nul; auto). rewrite add_perm_ok by auto. cbn [ebind]. destruct (IH HG' (p ++ s)) as (p' & -> & Hp'). exists p'. split; [reflexivity|].
      intros c. rewrite Hp', member_has_cons, in_app_iff. assert (~ same_but_case k "class") by (eapply not_both; [exact E1|reflexivity]). tauto.
    + apply caseeq_not in E1. destruct (caseeq k (L "class")) eqn:E2.
      * apply caseeq_iff in E2. rewrite need_text by (apply ascii7_nul; auto). cbn [ebind]. rewrite add_perm_ok by apply class_ascii7. cbn [ebind]. destruct (IH HG' (p ++ class_chars s)) as (p' & -> & Hp'). exists p'. split; [reflexivity|].
        intros c. rewrite Hp', member_has_cons, in_app_iff, class_chars_ok. tauto.
      * apply caseeq_not in E2. cbn [ebind]. destruct (IH HG' p) as (p' & -> & Hp'). exists p'. split; [reflexivity|]. intros c. rewrite Hp', member_has_cons. tauto.
Qed.
Lemma perm_array_ok a : (forall x, In x a -> exists m, x = JObj m /\ forall k y, In (k, y) m -> exists s, y = JStr s /\ ascii7 s) -> forall p,
  exists p', perm_array e a p = EOk p' /\ forall c, In c p' <-> In c p \/ exists m, In (JObj m) a /\ member_has m c.
Proof.
  induction a as [|x a IH]; intros HG p.
  - exists p. split; [reflexivity|]. intros c. split; auto. intros [H|(m & [] & _)]; auto.
  - destruct (HG x (or_introl eq_refl)) as (m & -> & Hm). cbn [perm_array]. destruct (perm_members_ok m Hm p) as (p1 & -> & H1). cbn [ebind].
    destruct (IH (fun x H => HG x (or_intror H)) p1) as (p2 & -> & H2). exists p2. split; [reflexivity|]. intros c. rewrite H2, H1. split.
    + intros [[H|H]|(m' & Hm' & H)]; [auto|right; exists m; split; [left|]; auto|right; exists m'; split; [right|]; auto].
    + intros [H|(m' & [Em|Hm'] & H)]; [auto|injection Em as <-; auto|right; eauto].
Qed.
Lemma permitted_ok v : good_permitted v -> exists p, (match v with JStr s => add_perm e [] (cstr s) | JArr a => perm_array e a [] | _ => EOk [] end) = EOk p /\ forall c, In c p <-> permits v c.
Proof.
  intros [(s & -> & Hs)|(a & -> & Ha)].
  - rewrite cstr_id by (apply ascii7_nul; auto). rewrite add_perm_ok by auto. exists s. split; [reflexivity|]. intros c. split; [apply pe_string|intros H; inversion H; auto].
  - destruct (perm_array_ok a Ha []) as (p & -> & Hp). exists p. split; [reflexivity|]. intros c. rewrite Hp. split.
    + intros [[]|(m & Hm & [(k & s & H1 & H2 & H3)|(k & s & H1 & H2 & H3)])]; [eapply pe_chars|eapply pe_class]; eauto.
    + intros H. right. inversion H; subst; eexists; (split; [eassumption|]); [left|right]; eauto.
Qed.

(** ** All parameters *)
Notation Qmodes := [("auto", QAuto); ("none", QNone); ("required", QReqd)]%string.
Notation Emodes := [("none", (false, false)); ("backslash", (true, false)); ("double", (false, true)); ("both", (true, true))]%string.
Notation Mmodes := [("strict", true); ("lazy", false)]%string.
Definition opts_ok (l : fields) (c c' : strcfg) : Prop :=
  choice l "quoting.mode" Qmodes (s_quote c) (s_quote c') /\ choice l "quoting.escape.mode" Emodes (s_escbs c, s_escdbl c) (s_escbs c', s_escdbl c') /\
  quote_char' l "quoting.char.begin" (s_qb c) (s_qb c') /\ quote_char' l "quoting.char.end" (s_qe c) (s_qe c') /\ choice l "matching.mode" Mmodes (s_exact c) (s_exact c') /\
  ((not_given l "matching.permitted" /\ s_perm c' = s_perm c) \/ exists v p, given l "matching.permitted" v /\ s_perm c' = Some p /\ forall c, In c p <-> permits v c).
Definition good_opts (l : fields) (c : strcfg) : Prop :=
  (exists q, choice l "quoting.mode" Qmodes (s_quote c) q) /\ (exists b, choice l "quoting.escape.mode" Emodes (s_escbs c, s_escdbl c) b) /\
  (exists x, quote_char' l "quoting.char.begin" (s_qb c) x) /\ (exists x, quote_char' l "quoting.char.end" (s_qe c) x) /\
  (exists b, choice l "matching.mode" Mmodes (s_exact c) b) /\ (not_given l "matching.permitted" \/ exists v, given l "matching.permitted" v /\ good_permitted v).
Lemma choice_default {A} l o W (d d' a : A) : choice l o W d a -> exists a', choice l o W d' a'.
Proof. intros [H|s w a' H1 H2 H3 H4]; [exists d'; apply ch_none; auto|exists a'; eapply ch_word; eauto]. Qed.
Lemma quote_default l o d d' a : quote_char' l o d a -> exists a', quote_char' l o d' a'.
Proof. intros [H|c H1 H2]; [exists d'; apply qc'_none; auto|exists c; apply qc'_char; auto]. Qed.
Lemma good_any l c c' : good_opts l c -> good_opts l c'.
Proof.
  intros ((? & H1) & (? & H2) & (? & H3) & (? & H4) & (? & H5) & H6). split; [eapply choice_default; eauto|]. split; [eapply choice_default; eauto|].
  split; [eapply quote_default; eauto|]. split; [eapply quote_default; eauto|]. split; [eapply choice_default; eauto|exact H6].
Qed.

(** One member: the options of the rest are good; given what the rest does with the configuration [c1] set by the member, the whole follows. *)
Lemma good_rest k v l c : ci_distinct ((k, v) :: l) -> good_opts ((k, v) :: l) c -> good_opts l c.
Proof.
  intros HD ((q & H1) & (b & H2) & (x & H3) & (y & H4) & (m & H5) & H6).
  assert (HC : forall {A} o W (d : A) a, choice ((k, v) :: l) o W d a -> exists a', choice l o W d a').
  { intros A o W d a H. destruct (caseeq k (L o)) eqn:E; [apply caseeq_iff in E; exists d; apply ch_none; eapply hit_rest; eauto|apply caseeq_not in E; exists a; apply choice_skip in H; auto]. }
  assert (HQ : forall o d a, quote_char' ((k, v) :: l) o d a -> exists a', quote_char' l o d a').
  { intros o d a H. destruct (caseeq k (L o)) eqn:E; [apply caseeq_iff in E; exists d; apply qc'_none; eapply hit_rest; eauto|apply caseeq_not in E; exists a; apply quote_skip in H; auto]. }
  split; [eapply HC; eauto|]. split; [eapply HC; eauto|]. split; [eapply HQ; eauto|]. split; [eapply HQ; eauto|]. split; [eapply HC; eauto|].
  destruct (caseeq k (L "matching.permitted")) eqn:E; [apply caseeq_iff in E; left; eapply hit_rest; eauto|]. apply caseeq_not in E.
  destruct H6 as [H6|(w & H6 & H7)]; [left; apply not_given_skip in H6; auto|right; exists w; split; auto; apply given_skip in H6; auto].
Qed.
Lemma choice_lift {A} k v l o W (d d1 a : A) : ci_distinct ((k, v) :: l) -> choice l o W d1 a -> (~ same_but_case k o -> d1 = d) ->
  (same_but_case k o -> exists s w, v = JStr s /\ ~ In NUL s /\ same_but_case s w /\ In (w, d1) W) -> choice ((k, v) :: l) o W d a.
Proof.
  intros HD H HN HY. destruct (caseeq k (L o)) eqn:E.
  - apply caseeq_iff in E. destruct (HY E) as (s & w & -> & H1 & H2 & H3). pose proof (hit_rest _ _ _ _ HD E) as HR. assert (a = d1) as ->.
    { destruct H as [|s' w' a (k' & HI & HS) _ _ _]; auto. exfalso. eapply HR; eauto. }
    eapply ch_word; eauto. exists k. split; [left|]; auto.
  - apply caseeq_not in E. rewrite (HN E) in H. apply choice_skip; auto.
Qed.
Lemma quote_lift k v l o d d1 a : ci_distinct ((k, v) :: l) -> quote_char' l o d1 a -> (~ same_but_case k o -> d1 = d) ->
  (same_but_case k o -> v = JStr [d1] /\ d1 <> NUL) -> quote_char' ((k, v) :: l) o d a.
Proof.
  intros HD H HN HY. destruct (caseeq k (L o)) eqn:E.
  - apply caseeq_iff in E. destruct (HY E) as (-> & H1). pose proof (hit_rest _ _ _ _ HD E) as HR. assert (a = d1) as ->.
    { destruct H as [|a (k' & HI & HS) _]; auto. exfalso. eapply HR; eauto. }
    apply qc'_char; auto. exists k. split; [left|]; auto.
  - apply caseeq_not in E. rewrite (HN E) in H. apply quote_skip; auto.
Qed.

Lemma opts_lift k v l c c1 c' : ci_distinct ((k, v) :: l) -> opts_ok l c1 c' ->
  (~ same_but_case k "quoting.mode" -> s_quote c1 = s_quote c) -> (same_but_case k "quoting.mode" -> exists s w, v = JStr s /\ ~ In NUL s /\ same_but_case s w /\ In (w, s_quote c1) Qmodes) ->
  (~ same_but_case k "quoting.escape.mode" -> (s_escbs c1, s_escdbl c1) = (s_escbs c, s_escdbl c)) -> (same_but_case k "quoting.escape.mode" -> exists s w, v = JStr s /\ ~ In NUL s /\ same_but_case s w /\ In (w, (s_escbs c1, s_escdbl c1)) Emodes) ->
  (~ same_but_case k "quoting.char.begin" -> s_qb c1 = s_qb c) -> (same_but_case k "quoting.char.begin" -> v = JStr [s_qb c1] /\ s_qb c1 <> NUL) ->
  (~ same_but_case k "quoting.char.end" -> s_qe c1 = s_qe c) -> (same_but_case k "quoting.char.end" -> v = JStr [s_qe c1] /\ s_qe c1 <> NUL) ->
  (~ same_but_case k "matching.mode" -> s_exact c1 = s_exact c) -> (same_but_case k "matching.mode" -> exists s w, v = JStr s /\ ~ In NUL s /\ same_but_case s w /\ In (w, s_exact c1) Mmodes) ->
  (~ same_but_case k "matching.permitted" -> s_perm c1 = s_perm c) -> (same_but_case k "matching.permitted" -> exists p, s_perm c1 = Some p /\ forall x, In x p <-> permits v x) ->
  opts_ok ((k, v) :: l) c c'.
Proof.
  intros HD (O1 & O2 & O3 & O4 & O5 & O6) A1 B1 A2 B2 A3 B3 A4 B4 A5 B5 A6 B6.
  split; [eapply choice_lift; eauto|]. split; [eapply choice_lift; eauto|]. split; [eapply quote_lift; eauto|]. split; [eapply quote_lift; eauto|]. split; [eapply choice_lift; eauto|].
  destruct (caseeq k (L "matching.permitted")) eqn:E.
  - apply caseeq_iff in E. destruct (B6 E) as (p & Hp & HP). right. exists v, p. split; [exists k; split; [left|]; auto|]. split; [|exact HP].
    destruct O6 as [[_ O6]|(w & p' & (k' & HI & HS) & _)]; [congruence|]. exfalso. eapply (hit_rest k v l); eauto.
  - apply caseeq_not in E. destruct O6 as [[O6 O7]|(w & p' & HG & O7)]; [left; split; [apply not_given_skip; auto|rewrite O7; auto]|right; exists w, p'; split; auto; apply given_skip; auto].
Qed.

Ltac word_done := split; [reflexivity|split; [assumption|split; [assumption|repeat (first [left; reflexivity|right])]]].
Ltac not_this := intros XX; exfalso; match goal with
  | HH : ~ same_but_case ?k ?o |- _ => exact (HH XX)
  | HH : same_but_case ?k ?o |- _ => revert XX; eapply not_both; [exact HH|reflexivity]
  end.
Ltac lift_all := eapply opts_lift; [eassumption|eassumption|..]; cbn [s_quote s_escbs s_escdbl s_exact s_qb s_qe s_perm]; try (intros _; reflexivity); try not_this;
  try (let XX := fresh in intros XX; exfalso; apply XX; assumption).

Lemma string_conf_ok l : ci_distinct l -> forall c, good_opts l c -> exists c', string_conf e l c = EOk (Some c') /\ opts_ok l c c'.
Proof.
  induction l as [|[k v] l IH]; intros HD c HG.
  - exists c. split; [reflexivity|]. assert (HN : forall o, not_given [] o) by (intros o k v []). split; [apply ch_none; auto|]. split; [apply ch_none; auto|]. split; [apply qc'_none; auto|]. split; [apply qc'_none; auto|]. split; [apply ch_none; auto|]. left. auto.
  - pose proof (good_rest k v l c HD HG) as HGR. assert (HD' : ci_distinct l) by (unfold ci_distinct in *; cbn [map fst] in HD; inversion HD; auto).
    assert (IH' : forall c1, exists c', string_conf e l c1 = EOk (Some c') /\ opts_ok l c1 c') by (intros c1; apply IH; [exact HD'|eapply good_any; exact HGR]).
    destruct HG as ((q & G1) & (b & G2) & (x & G3) & (y & G4) & (mm & G5) & G6). cbn [string_conf].
    destruct (caseeq k (L "quoting.mode")) eqn:E1.
    { apply caseeq_iff in E1. destruct (choice_hit _ _ _ _ _ _ _ HD E1 G1) as (s & w & -> & Hs & Hw & HI). rewrite need_text by auto. cbn [ebind]. cbv zeta.
      cbn [In] in HI. destruct HI as [[= <- <-]|[[= <- <-]|[[= <- <-]|[]]]].
      - rewrite (proj2 (caseeq_iff s "auto") Hw). match goal with |- exists c', string_conf e l ?C = _ /\ _ => destruct (IH' C) as (c' & -> & HO) end. exists c'. split; [reflexivity|]. lift_all. intros _. exists s, "auto"%string. word_done.
      - rewrite (proj2 (caseeq_not s "auto")), (proj2 (caseeq_iff s "none") Hw) by (eapply not_both; [exact Hw|reflexivity]). match goal with |- exists c', string_conf e l ?C = _ /\ _ => destruct (IH' C) as (c' & -> & HO) end. exists c'. split; [reflexivity|]. lift_all. intros _. exists s, "none"%string. word_done.
      - rewrite (proj2 (caseeq_not s "auto")), (proj2 (caseeq_not s "none")), (proj2 (caseeq_iff s "required") Hw) by (eapply not_both; [exact Hw|reflexivity]). match goal with |- exists c', string_conf e l ?C = _ /\ _ => destruct (IH' C) as (c' & -> & HO) end. exists c'. split; [reflexivity|]. lift_all. intros _. exists s, "required"%string. word_done. }
    apply caseeq_not in E1. destruct (caseeq k (L "quoting.escape.mode")) eqn:E2.
    { apply caseeq_iff in E2. destruct (choice_hit _ _ _ _ _ _ _ HD E2 G2) as (s & w & -> & Hs & Hw & HI). rewrite need_text by auto. cbn [ebind]. cbv zeta.
      cbn [In] in HI. destruct HI as [[= <- <-]|[[= <- <-]|[[= <- <-]|[[= <- <-]|[]]]]].
      - rewrite (proj2 (caseeq_iff s "none") Hw). match goal with |- exists c', string_conf e l ?C = _ /\ _ => destruct (IH' C) as (c' & -> & HO) end. exists c'. split; [reflexivity|]. lift_all. intros _. exists s, "none"%string. word_done.
      - rewrite (proj2 (caseeq_not s "none")), (proj2 (caseeq_iff s "backslash") Hw) by (eapply not_both; [exact Hw|reflexivity]). match goal with |- exists c', string_conf e l ?C = _ /\ _ => destruct (IH' C) as (c' & -> & HO) end. exists c'. split; [reflexivity|]. lift_all. intros _. exists s, "backslash"%string. word_done.
      - rewrite (proj2 (caseeq_not s "none")), (proj2 (caseeq_not s "backslash")), (proj2 (caseeq_iff s "double") Hw) by (eapply not_both; [exact Hw|reflexivity]). match goal with |- exists c', string_conf e l ?C = _ /\ _ => destruct (IH' C) as (c' & -> & HO) end. exists c'. split; [reflexivity|]. lift_all. intros _. exists s, "double"%string. word_done.
      - rewrite (proj2 (caseeq_not s "none")), (proj2 (caseeq_not s "backslash")), (proj2 (caseeq_not s "double")), (proj2 (caseeq_iff s "both") Hw) by (eapply not_both; [exact Hw|reflexivity]). match goal with |- exists c', string_conf e l ?C = _ /\ _ => destruct (IH' C) as (c' & -> & HO) end. exists c'. split; [reflexivity|]. lift_all. intros _. exists s, "both"%string. word_done. }
    apply caseeq_not in E2. destruct (caseeq k (L "quoting.char.begin")) eqn:E3.
    { apply caseeq_iff in E3. destruct (quote_hit _ _ _ _ _ _ HD E3 G3) as (-> & Hx). rewrite need_text by (intros [HX|[]]; congruence). cbn [ebind].
      match goal with |- exists c', string_conf e l ?C = _ /\ _ => destruct (IH' C) as (c' & -> & HO) end. exists c'. split; [reflexivity|]. lift_all. intros _. auto. }
    apply caseeq_not in E3. destruct (caseeq k (L "quoting.char.end")) eqn:E4.
    { apply caseeq_iff in E4. destruct (quote_hit _ _ _ _ _ _ HD E4 G4) as (-> & Hx). rewrite need_text by (intros [HX|[]]; congruence). cbn [ebind].
      match goal with |- exists c', string_conf e l ?C = _ /\ _ => destruct (IH' C) as (c' & -> & HO) end. exists c'. split; [reflexivity|]. lift_all. intros _. auto. }
    apply caseeq_not in E4. destruct (caseeq k (L "matching.permitted")) eqn:E5.
    { apply caseeq_iff in E5. assert (HP : good_permitted v). { destruct G6 as [G6|(w & G6 & G7)]; [exfalso; eapply G6; [left; reflexivity|exact E5]|]. rewrite (hit_given _ _ _ _ _ HD E5 G6) in G7. exact G7. }
      destruct (permitted_ok v HP) as (p & Ep & Hp). rewrite Ep. cbn [ebind]. match goal with |- exists c', string_conf e l ?C = _ /\ _ => destruct (IH' C) as (c' & -> & HO) end. exists c'. split; [reflexivity|]. lift_all. intros _. exists p. auto. }
    apply caseeq_not in E5. destruct (caseeq k (L "matching.mode")) eqn:E6.
    { apply caseeq_iff in E6. destruct (choice_hit _ _ _ _ _ _ _ HD E6 G5) as (s & w & -> & Hs & Hw & HI). rewrite need_text by auto. cbn [ebind]. cbv zeta.
      cbn [In] in HI. destruct HI as [[= <- <-]|[[= <- <-]|[]]].
      - rewrite (proj2 (caseeq_iff s "strict") Hw). match goal with |- exists c', string_conf e l ?C = _ /\ _ => destruct (IH' C) as (c' & -> & HO) end. exists c'. split; [reflexivity|]. lift_all. intros _. exists s, "strict"%string. word_done.
      - rewrite (proj2 (caseeq_not s "strict")), (proj2 (caseeq_iff s "lazy") Hw) by (eapply not_both; [exact Hw|reflexivity]). match goal with |- exists c', string_conf e l ?C = _ /\ _ => destruct (IH' C) as (c' & -> & HO) end. exists c'. split; [reflexivity|]. lift_all. intros _. exists s, "lazy"%string. word_done. }
    apply caseeq_not in E6. destruct (IH' c) as (c' & -> & HO). exists c'. split; [reflexivity|]. lift_all.
Qed.

(** The parameters of a configuration and of what is left of it. *)
Lemma stripped_given l nm o v : ~ same_but_case (L "type") o -> ~ same_but_case (L "priority") o -> ~ same_but_case (L "name") o -> (given (stripped l nm) o v <-> given l o v).
Proof.
  intros H1 H2 H3. split; intros (k & HI & HS); exists k; split; auto; [eapply stripped_In; eauto|]. apply stripped_In_other; auto; intros ->; auto.
Qed.
Lemma stripped_not_given l nm o : ~ same_but_case (L "type") o -> ~ same_but_case (L "priority") o -> ~ same_but_case (L "name") o -> (not_given (stripped l nm) o <-> not_given l o).
Proof.
  intros H1 H2 H3. split; intros H k v HI HS; (eapply H; [|exact HS]); [apply stripped_In_other; eauto; intros ->; auto|eapply stripped_In; eauto].
Qed.
Lemma ci_nodup l : ci_distinct l -> NoDup (map fst l).
Proof. unfold ci_distinct. rewrite <- (map_map fst (map tolower)). apply NoDup_map_inv. Qed.

Lemma string_flat l nm : ci_distinct l -> text_at l "type" (L "string") -> field_name l nm -> good_string_options l ->
  exists cfg, string_options l cfg /\ forall types, flat_field e types (JObj l) = Some (KSimple (MString cfg), nm).
Proof.
  intros HD HT HN HG. set (r := stripped l nm).
  assert (HDr : ci_distinct r) by (apply (stripped_NoDup (map tolower)); exact HD).
  assert (HC : forall A o W (d a : A), ~ same_but_case (L "type") o -> ~ same_but_case (L "priority") o -> ~ same_but_case (L "name") o -> (choice l o W d a <-> choice r o W d a)).
  { intros A o W d a H1 H2 H3. split; intros [H|s w a' H ? ? ?]; [apply ch_none|eapply ch_word; eauto|apply ch_none|eapply ch_word; eauto];
      try (apply (stripped_not_given l nm o); assumption); apply (stripped_given l nm o); assumption. }
  assert (HQ : forall o a, ~ same_but_case (L "type") o -> ~ same_but_case (L "priority") o -> ~ same_but_case (L "name") o -> (quote_char l o a <-> quote_char' r o """" a)).
  { intros o a H1 H2 H3. split; intros [H|c H ?]; [apply qc'_none|apply qc'_char; auto|apply qc_none|apply qc_char; auto];
      try (apply (stripped_not_given l nm o); assumption); apply (stripped_given l nm o); assumption. }
  assert (HS : forall a b, text_eqb (map tolower (L a)) (map tolower (L b)) = false -> ~ same_but_case (L a) b) by (intros a b H E; unfold same_but_case in E; rewrite E, text_eqb_refl in H; discriminate).
  assert (HGr : good_opts r strcfg0).
  { destruct HG as ((q & G1) & (b & G2) & (x & G3) & (y & G4) & (mm & G5) & G6).
    split; [exists q; apply HC; auto; apply HS; reflexivity|]. split; [exists b; apply HC; auto; apply HS; reflexivity|]. split; [exists x; apply HQ; auto; apply HS; reflexivity|]. split; [exists y; apply HQ; auto; apply HS; reflexivity|].
    split; [exists mm; apply HC; auto; apply HS; reflexivity|]. destruct G6 as [G6|(v & G6 & G7)]; [left; apply stripped_not_given; auto; apply HS; reflexivity|right; exists v; split; auto; apply stripped_given; auto; apply HS; reflexivity]. }
  destruct (string_conf_ok r HDr strcfg0 HGr) as (c & Ec & (O1 & O2 & O3 & O4 & O5 & O6)). cbn [strcfg0 s_quote s_escbs s_escdbl s_exact s_qb s_qe s_perm] in *.
  set (cfg := match s_quote c with QNone => {| s_quote := QNone; s_escbs := false; s_escdbl := false; s_exact := s_exact c; s_qb := s_qb c; s_qe := s_qe c; s_perm := s_perm c |} | _ => c end).
  assert (Ecfg : s_quote cfg = s_quote c /\ s_exact cfg = s_exact c /\ s_qb cfg = s_qb c /\ s_qe cfg = s_qe c /\ s_perm cfg = s_perm c) by (unfold cfg; destruct (s_quote c) eqn:E; repeat split; auto).
  destruct Ecfg as (F1 & F2 & F3 & F4 & F5). exists cfg. split.
  - split; [rewrite F1; apply HC; auto; apply HS; reflexivity|]. split.
    { exists (s_escbs c), (s_escdbl c). split; [apply HC; auto; apply HS; reflexivity|]. rewrite F1. unfold cfg. destruct (s_quote c); auto. }
    split; [rewrite F3; apply HQ; auto; apply HS; reflexivity|]. split; [rewrite F4; apply HQ; auto; apply HS; reflexivity|]. split; [rewrite F2; apply HC; auto; apply HS; reflexivity|].
    rewrite F5. destruct O6 as [[O6 O7]|(v & p & O6 & O7)]; [left; split; [|exact O7]; apply (stripped_not_given l nm); [apply HS; reflexivity|apply HS; reflexivity|apply HS; reflexivity|exact O6]|right; exists v, p; split; [|exact O7]; apply (stripped_given l nm); [apply HS; reflexivity|apply HS; reflexivity|apply HS; reflexivity|exact O6]].
  - intros types. eapply simple_flat; [exact HT|exact HN|discriminate|reflexivity|eexists; reflexivity| |discriminate].
    change (simple_type e (L "string") (stripped l nm)) with (Some (32%Z, construct_string e r)). unfold construct_string. rewrite Ec. cbn [ebind]. fold cfg. reflexivity.
Qed.

(** ** Priorities and unknown types *)
Lemma simple_prio typ l pr m : simple_type e (L typ) l = Some (pr, m) -> In (typ, pr) type_priorities.
Proof.
  assert (HL : forall s, text_eqb (L typ) (L s) = true -> typ = s).
  { intros s H. apply text_eqb_true in H. apply (f_equal string_of_list_ascii) in H. unfold L in H. rewrite !string_of_list_ascii_of_string in H. exact H. }
  unfold simple_type. intros H. cbn [type_priorities In].
  repeat (match type of H with (if text_eqb _ (L ?s) then _ else _) = _ => destruct (text_eqb (L typ) (L s)) eqn:?; [match goal with EE : text_eqb (L typ) (L s) = true |- _ => apply HL in EE as ->; injection H as <- _; tauto end|] end). discriminate.
Qed.
End Env.
