(** * TypeFacts: configurations stand for the fields of TypeSpec.v. *)
From Verif Require Import Base BaseFacts Parsers Engine Pdag Samp RuleSpec BuiltSpec TypeSpec FieldFacts DateFacts FieldFacts10 EngineFacts2.

(** ** Lookup *)
Lemma value_get l k : value l k = obj_get l (L k).
Proof. unfold value. induction l as [|[k' v] l IH]; [reflexivity|]. cbn [find obj_get fst]. destruct (text_eqb (L k) k'); [reflexivity|exact IH]. Qed.
Lemma obj_get_del l k k' : text_eqb k k' = false -> obj_get (obj_del l k') k = obj_get l k.
Proof.
  intros H. induction l as [|[k2 v] l IH]; [reflexivity|]. cbn [obj_del obj_get]. destruct (text_eqb k' k2) eqn:E.
  - apply text_eqb_true in E as <-. rewrite H. reflexivity.
  - cbn [obj_get]. rewrite IH. reflexivity.
Qed.
Lemma obj_get_In l k v : obj_get l k = Some v -> In (k, v) l.
Proof.
  induction l as [|[k2 v2] l IH]; [discriminate|]. cbn [obj_get]. destruct (text_eqb k k2) eqn:E.
  - apply text_eqb_true in E as <-. intros [= <-]. left; auto.
  - right; auto.
Qed.
Lemma In_obj_get l k v : NoDup (map fst l) -> In (k, v) l -> obj_get l k = Some v.
Proof.
  induction l as [|[k2 v2] l IH]; [intros _ []|]. cbn [map fst obj_get]. intros HN [[= <- <-]|H].
  - rewrite text_eqb_refl. reflexivity.
  - inversion HN; subst. destruct (text_eqb k k2) eqn:E; [|auto]. apply text_eqb_true in E as <-. exfalso. apply H2. apply in_map_iff. exists (k, v). auto.
Qed.
Lemma In_del l k kv : In kv (obj_del l k) -> In kv l.
Proof.
  induction l as [|[k2 v2] l IH]; [intros []|]. cbn [obj_del]. destruct (text_eqb k k2); [right; auto|]. intros [<-|H]; [left; auto|right; auto].
Qed.
Lemma In_del_other l k k' v : k' <> k -> In (k', v) l -> In (k', v) (obj_del l k).
Proof.
  intros HN. induction l as [|[k2 v2] l IH]; [intros []|]. cbn [obj_del]. destruct (text_eqb k k2) eqn:E.
  - apply text_eqb_true in E as <-. intros [[= <- <-]|H]; [congruence|auto].
  - intros [[= <- <-]|H]; [left; auto|right; auto].
Qed.
Lemma NoDup_del {B} (f : text -> B) l k : NoDup (map (fun kv => f (fst kv)) l) -> NoDup (map (fun kv => f (fst kv)) (obj_del l k)).
Proof.
  induction l as [|[k2 v2] l IH]; [auto|]. cbn [map fst obj_del]. intros HN. inversion HN; subst. destruct (text_eqb k k2); [auto|].
  cbn [map fst]. constructor; [|auto]. intros Hin. apply H1. apply in_map_iff in Hin as (kv & E & Hin). apply in_map_iff. exists kv. split; auto. eapply In_del; eauto.
Qed.

(** ** The configuration without type, name and priority *)
Definition stripped (l : fields) (nm : option text) : fields :=
  let r := obj_del (obj_del l (L "type")) (L "priority") in match nm with Some _ => obj_del r (L "name") | None => r end.
Lemma stripped_get l nm k : text_eqb k (L "type") = false -> text_eqb k (L "priority") = false -> text_eqb k (L "name") = false -> obj_get (stripped l nm) k = obj_get l k.
Proof. intros H1 H2 H3. unfold stripped. destruct nm; rewrite ?obj_get_del; auto. Qed.
Lemma stripped_name l : obj_get (stripped l None) (L "name") = obj_get l (L "name").
Proof. unfold stripped. rewrite !obj_get_del by reflexivity. reflexivity. Qed.
Lemma stripped_In l nm kv : In kv (stripped l nm) -> In kv l.
Proof. unfold stripped. destruct nm; intros H; repeat (apply In_del in H); exact H. Qed.
Lemma stripped_In_other l nm k v : k <> L "type" -> k <> L "priority" -> k <> L "name" -> In (k, v) l -> In (k, v) (stripped l nm).
Proof. intros H1 H2 H3 H. unfold stripped. destruct nm; repeat (apply In_del_other; auto). Qed.
Lemma stripped_NoDup {B} (f : text -> B) l nm : NoDup (map (fun kv => f (fst kv)) l) -> NoDup (map (fun kv => f (fst kv)) (stripped l nm)).
Proof. intros H. unfold stripped. destruct nm; repeat (apply NoDup_del); exact H. Qed.

Section Env.
Variable e : env.

Lemma need_text s : ~ In NUL s -> need_str e (JStr s) = EOk s.
Proof. intros H. unfold need_str, jstring. rewrite cstr_id by auto. reflexivity. Qed.

(** A configuration of a simple type *)
Lemma new_simple addp cx l typ nm pr m : text_at l "type" typ -> field_name l nm -> hd_error typ <> Some "@"%char -> text_eqb typ (L "repeat") = false ->
  (exists x, simple_type e typ [] = Some x) -> simple_type e typ (stripped l nm) = Some (pr, EOk m) ->
  exists p, newParser e addp cx (JObj l) = EOk (cx, Some p) /\ p_kind p = KSimple m /\ p_name p = nm /\
    p_prio p = mk_prio (match obj_get l (L "priority") with None | Some JNull => 30000%Z | Some v => get_int e v end) pr.
Proof.
  intros (HT & HTn) HN HAt HR (x & HX) HS. rewrite value_get in HT. unfold newParser, jget. rewrite HT. rewrite need_text by auto. cbn [ebind].
  assert (EC : match typ with c :: _ => ceq c "@" | [] => false end = false).
  { destruct typ as [|c t]; [reflexivity|]. destruct (ceq c "@") eqn:E; auto. apply ceq_true in E as ->. exfalso. apply HAt. reflexivity. }
  rewrite EC. cbv zeta. cbv iota. rewrite HR, HX. cbn [orb negb].
  assert (EN : match obj_get l (L "name") with None | Some JNull => EOk None | Some v => do* s := need_str e v in EOk (if text_eqb s (L "-") then None else Some s) end = EOk nm).
  { destruct HN as [HA|[HA HB]|s [HA HB] HD]; [unfold absent in HA|..]; rewrite value_get in HA; rewrite HA; [reflexivity|rewrite need_text by auto; reflexivity|].
    rewrite need_text by auto. cbn [ebind]. destruct (text_eqb s (L "-")) eqn:E; [apply text_eqb_true in E; congruence|reflexivity]. }
  rewrite EN. cbn [ebind]. change (match nm with Some _ => _ | None => _ end) with (stripped l nm). rewrite HS. cbn [ebind]. eexists. split; [reflexivity|]. auto.
Qed.

Lemma simple_flat l typ nm pr m types : text_at l "type" typ -> field_name l nm -> hd_error typ <> Some "@"%char -> text_eqb typ (L "repeat") = false ->
  (exists x, simple_type e typ [] = Some x) -> simple_type e typ (stripped l nm) = Some (pr, EOk m) -> (forall t, m <> MNoData t) ->
  flat_field e types (JObj l) = Some (KSimple m, nm).
Proof.
  intros HT HN H1 H2 H3 H4 H5. unfold flat_field. match goal with |- match newParser e ?a ?c _ with _ => _ end = _ => destruct (new_simple a c l typ nm pr m HT HN H1 H2 H3 H4) as (p & -> & -> & -> & _) end.
  destruct m; try reflexivity. exfalso. eapply H5. reflexivity.
Qed.

(** ** Formats *)
Lemma fmt_conf_ok fmtof um l : NoDup (map fst l) -> textual l "name" -> forall f mx,
  (absent l "format" \/ exists s, text_at l "format" s) -> (absent l "maxval" \/ exists z, value l "maxval" = Some (JInt z)) ->
  fmt_conf e fmtof um l f mx = EOk (match value l "format" with Some (JStr s) => match fmtof s with Some f' => f' | None => f end | _ => f end,
                                    if um then match value l "maxval" with Some (JInt z) => z | _ => mx end else mx).
Proof.
  unfold textual, absent, text_at. setoid_rewrite value_get. induction l as [|[k v] l IH]; intros HN HNm f mx HF HM.
  - cbn. destruct um; reflexivity.
  - cbn [map fst] in HN. inversion HN as [|? ? HNi HN']; subst. cbn [fmt_conf].
    assert (HNo : forall k', text_eqb k' k = true -> obj_get l k' = None).
    { intros k' E. apply text_eqb_true in E as ->. destruct (obj_get l k) as [v'|] eqn:EG; auto. exfalso. apply HNi. apply obj_get_In in EG. apply in_map_iff. exists (k, v'). auto. }
    cbn [obj_get] in *. destruct (text_eqb k (L "maxval")) eqn:E1.
    + apply text_eqb_true in E1 as ->. change (text_eqb (L "format") (L "maxval")) with false in *. change (text_eqb (L "name") (L "maxval")) with false in *. change (text_eqb (L "maxval") (L "maxval")) with true in *. cbv iota in *.
      change (text_eqb (L "maxval") (L "format")) with false. change (text_eqb (L "maxval") (L "name")) with false. cbv iota.
      destruct HM as [HM|(z & HM)]; [discriminate|]. injection HM as ->. assert (EM : obj_get l (L "maxval") = None) by (apply HNo; reflexivity).
      destruct um; cbn [andb]; rewrite IH; auto; rewrite EM; reflexivity.
    + rewrite andb_false_r. destruct (text_eqb (L "maxval") k) eqn:E1'; [apply text_eqb_true in E1' as <-; discriminate|].
      destruct (text_eqb k (L "format")) eqn:E2.
      * apply text_eqb_true in E2 as ->. change (text_eqb (L "format") (L "format")) with true in *. change (text_eqb (L "name") (L "format")) with false in *. cbv iota in *.
        destruct HF as [HF|(s & HF & Hs)]; [discriminate|]. injection HF as ->. rewrite need_text by auto. cbn [ebind]. assert (EM : obj_get l (L "format") = None) by (apply HNo; reflexivity).
        rewrite IH; auto. rewrite EM. reflexivity.
      * destruct (text_eqb (L "format") k) eqn:E2'; [apply text_eqb_true in E2' as <-; discriminate|].
        destruct (text_eqb k (L "name")) eqn:E3.
        -- apply text_eqb_true in E3 as ->. change (text_eqb (L "name") (L "name")) with true in *. cbv iota in *.
           destruct HNm as [HNm|(s & HNm & Hs)]; [discriminate|]. injection HNm as ->. rewrite need_text by auto. cbn [ebind]. assert (EM : obj_get l (L "name") = None) by (apply HNo; reflexivity). apply IH; auto.
        -- destruct (text_eqb (L "name") k) eqn:E3'; [apply text_eqb_true in E3' as <-; discriminate|]. apply IH; auto.
Qed.

Lemma fmt_conf_ok_nomax fmtof l : NoDup (map fst l) -> textual l "name" -> forall f mx,
  (absent l "format" \/ exists s, text_at l "format" s) ->
  fmt_conf e fmtof false l f mx = EOk (match value l "format" with Some (JStr s) => match fmtof s with Some f' => f' | None => f end | _ => f end, mx).
Proof.
  unfold textual, absent, text_at. setoid_rewrite value_get. induction l as [|[k v] l IH]; intros HN HNm f mx HF; [reflexivity|].
  cbn [map fst] in HN. inversion HN as [|? ? HNi HN']; subst. cbn [fmt_conf andb].
  assert (HNo : forall k', text_eqb k' k = true -> obj_get l k' = None).
  { intros k' E. apply text_eqb_true in E as ->. destruct (obj_get l k) as [v'|] eqn:EG; auto. exfalso. apply HNi. apply obj_get_In in EG. apply in_map_iff. exists (k, v'). auto. }
  cbn [obj_get] in *. destruct (text_eqb k (L "format")) eqn:E2.
  - apply text_eqb_true in E2 as ->. change (text_eqb (L "format") (L "format")) with true in *. change (text_eqb (L "name") (L "format")) with false in *. cbv iota in *.
    destruct HF as [HF|(s & HF & Hs)]; [discriminate|]. injection HF as ->. rewrite need_text by auto. cbn [ebind]. assert (EM : obj_get l (L "format") = None) by (apply HNo; reflexivity).
    rewrite IH; auto. rewrite EM. reflexivity.
  - destruct (text_eqb (L "format") k) eqn:E2'; [apply text_eqb_true in E2' as <-; discriminate|].
    destruct (text_eqb k (L "name")) eqn:E3.
    + apply text_eqb_true in E3 as ->. change (text_eqb (L "name") (L "name")) with true in *. cbv iota in *.
      destruct HNm as [HNm|(s & HNm & Hs)]; [discriminate|]. injection HNm as ->. rewrite need_text by auto. cbn [ebind]. assert (EM : obj_get l (L "name") = None) by (apply HNo; reflexivity). apply IH; auto.
    + destruct (text_eqb (L "name") k) eqn:E3'; [apply text_eqb_true in E3' as <-; discriminate|]. apply IH; auto.
Qed.

Lemma format_given names l f : format names l f -> absent l "format" \/ exists s, text_at l "format" s.
Proof. intros [H|n f' H _|s H _]; [left; exact H|right; eauto|right; eauto]. Qed.
Lemma maxval_given l z : maxval l z -> (absent l "maxval" \/ exists z, value l "maxval" = Some (JInt z)) /\ match value l "maxval" with Some (JInt z) => z | _ => 0%Z end = z.
Proof. intros [H|z' H]; [split; [left; exact H|rewrite H; reflexivity]|split; [right; eauto|rewrite H; reflexivity]]. Qed.
Lemma number_format l f : format number_formats l f -> match value l "format" with Some (JStr s) => match fmt_num s with Some f' => f' | None => FmtString end | _ => FmtString end = f.
Proof.
  intros [H|n f' [H _] HI|s [H _] HI]; rewrite H; [reflexivity| |].
  - destruct HI as [[= <- <-]|[[= <- <-]|[]]]; reflexivity.
  - unfold fmt_num. destruct (text_eqb s (L "number")) eqn:E; [apply text_eqb_true in E as ->; exfalso; eapply HI; [left; reflexivity|reflexivity]|].
    destruct (text_eqb s (L "string")); reflexivity.
Qed.
Lemma date_format l f : format date_formats l f -> match value l "format" with Some (JStr s) => match fmt_date s with Some f' => f' | None => FmtString end | _ => FmtString end = f.
Proof.
  intros [H|n f' [H _] HI|s [H _] HI]; rewrite H; [reflexivity| |].
  - destruct HI as [[= <- <-]|[[= <- <-]|[[= <- <-]|[]]]]; reflexivity.
  - unfold fmt_date. destruct (text_eqb s (L "timestamp-unix")) eqn:E; [apply text_eqb_true in E as ->; exfalso; eapply HI; [left; reflexivity|reflexivity]|].
    destruct (text_eqb s (L "timestamp-unix-ms")) eqn:E2; [apply text_eqb_true in E2 as ->; exfalso; eapply HI; [right; left; reflexivity|reflexivity]|].
    destruct (text_eqb s (L "string")); reflexivity.
Qed.

(** The parameters are those of the whole configuration. *)
Lemma stripped_value l nm k : k <> "type"%string -> k <> "priority"%string -> k <> "name"%string -> value (stripped l nm) k = value l k.
Proof.
  intros H1 H2 H3. rewrite !value_get. apply stripped_get;
    (match goal with |- text_eqb (L ?a) (L ?b) = false => destruct (text_eqb (L a) (L b)) eqn:E; [|reflexivity]; apply text_eqb_true in E; exfalso end).
  all: apply (f_equal string_of_list_ascii) in E; unfold L in E; rewrite !string_of_list_ascii_of_string in E; congruence.
Qed.
Lemma stripped_textual l nm : NoDup (map fst l) -> textual l "name" -> field_name l nm -> textual (stripped l nm) "name".
Proof.
  intros HD HT HN. destruct nm as [nm|].
  - left. unfold absent. rewrite value_get. unfold stripped. set (r := obj_del _ (L "priority")). assert (HR : NoDup (map fst r)) by (apply (NoDup_del (fun k => k)), (NoDup_del (fun k => k)); exact HD).
    destruct (obj_get (obj_del r (L "name")) (L "name")) as [v|] eqn:E; auto. exfalso. clear - E HR. revert E. induction r as [|[k x] r IH]; [discriminate|]. cbn [map fst] in HR. inversion HR; subst.
    cbn [obj_del]. destruct (text_eqb (L "name") k) eqn:EK.
    + apply text_eqb_true in EK as <-. intros E. apply obj_get_In in E. apply H1. apply in_map_iff. exists (L "name", v). auto.
    + cbn [obj_get]. rewrite EK. auto.
  - unfold textual, absent, text_at in *. rewrite !value_get in *. rewrite !stripped_name. exact HT.
Qed.

Definition std_type (typ : string) : bool := match simple_type e (L typ) [] with Some _ => true | None => false end.
Lemma kind_flat l typ nm m types : NoDup (map fst l) -> text_at l "type" (L typ) -> field_name l nm -> kind_of l typ m ->
  flat_field e types (JObj l) = Some (KSimple m, nm).
Proof.
  intros HD HT HN HK.
  assert (HD' : NoDup (map fst (stripped l nm))) by (apply (stripped_NoDup (fun k => k)); exact HD).
  assert (HV : forall k, k <> "type"%string -> k <> "priority"%string -> k <> "name"%string -> value (stripped l nm) k = value l k) by (intros; apply stripped_value; auto).
  assert (HFM : forall names f, format names l f -> format names (stripped l nm) f).
  { intros names f [H|n f' [H1 H2] HI|s [H1 H2] HI]; [apply fo_none|eapply fo_named; [split|]; eauto|eapply fo_other; [split|]; eauto]; unfold absent in *; rewrite HV by discriminate; auto. }
  assert (HMV : forall z, maxval l z -> maxval (stripped l nm) z).
  { intros z [H|z' H]; [apply mv_none|apply mv_int]; unfold absent in *; rewrite HV by discriminate; auto. }
  assert (HE : forall s, text_at l "extradata" s -> obj_get (stripped l nm) (L "extradata") = Some (JStr s)) by (intros s [H _]; rewrite <- value_get, HV by discriminate; exact H).
  assert (HO : forall k c, k <> "type"%string -> k <> "priority"%string -> k <> "name"%string -> one_byte l k c -> one_byte (stripped l nm) k c).
  { intros k c K1 K2 K3 [H|c' H]; [apply ob_none|apply ob_given]; unfold absent in *; rewrite HV by auto; auto. }
  assert (HGo : forall pr, simple_type e (L typ) (stripped l nm) = Some (pr, EOk m) -> hd_error (L typ) <> Some "@"%char -> text_eqb (L typ) (L "repeat") = false -> (exists x, simple_type e (L typ) [] = Some x) -> (forall t, m <> MNoData t) ->
    flat_field e types (JObj l) = Some (KSimple m, nm)) by (intros; eapply simple_flat; eauto).
  destruct HK as [typ m HI|s HS|f HNm HF|f HNm HF|f z HNm HF HZ|f z HNm HF HZ Hz|f HNm HF|s HS|s HS|s HS|s a HS HA|c HC HCC].
  - cbn [plain_types In] in HI. repeat (destruct HI as [[= <- <-]|HI]; [eapply HGo; [reflexivity|discriminate|reflexivity|eexists; reflexivity|discriminate]|]). destruct HI.
  - eapply HGo; [|discriminate|reflexivity|eexists; reflexivity|discriminate].
    change (simple_type e (L "literal") (stripped l nm)) with (Some (4%Z, match obj_get (stripped l nm) (L "text") with None => EOk (MNoData (L "literal")) | Some v => do* s := need_str e v in EOk (MLiteral s) end)).
    destruct HS as [HS HS2]. rewrite <- value_get, HV, HS by discriminate. rewrite need_text by auto. reflexivity.
  - eapply HGo; [|discriminate|reflexivity|eexists; reflexivity|discriminate].
    change (simple_type e (L "date-rfc3164") (stripped l nm)) with (Some (8%Z, do* (f, _) := fmt_conf e fmt_date false (stripped l nm) FmtString 0 in EOk (MRFC3164 f))).
    unfold ebind. rewrite fmt_conf_ok_nomax; auto; [|eapply stripped_textual; eauto|eapply format_given; eauto]. rewrite (date_format _ _ (HFM _ _ HF)). reflexivity.
  - eapply HGo; [|discriminate|reflexivity|eexists; reflexivity|discriminate].
    change (simple_type e (L "date-rfc5424") (stripped l nm)) with (Some (8%Z, do* (f, _) := fmt_conf e fmt_date false (stripped l nm) FmtString 0 in EOk (MRFC5424 f))).
    unfold ebind. rewrite fmt_conf_ok_nomax; auto; [|eapply stripped_textual; eauto|eapply format_given; eauto]. rewrite (date_format _ _ (HFM _ _ HF)). reflexivity.
  - eapply HGo; [|discriminate|reflexivity|eexists; reflexivity|discriminate].
    change (simple_type e (L "number") (stripped l nm)) with (Some (16%Z, do* (f, m) := fmt_conf e fmt_num true (stripped l nm) FmtString 0 in EOk (MNumber f m))).
    destruct (maxval_given _ _ (HMV _ HZ)) as [HM1 HM2]. unfold ebind. rewrite fmt_conf_ok; auto; [|eapply stripped_textual; eauto|eapply format_given; eauto]. rewrite (number_format _ _ (HFM _ _ HF)), HM2. reflexivity.
  - eapply HGo; [|discriminate|reflexivity|eexists; reflexivity|discriminate].
    change (simple_type e (L "hexnumber") (stripped l nm)) with (Some (16%Z, do* (f, m) := fmt_conf e fmt_num true (stripped l nm) FmtString 0 in EOk (MHex f (m mod 2 ^ 64)%Z))).
    destruct (maxval_given _ _ (HMV _ HZ)) as [HM1 HM2]. unfold ebind. rewrite fmt_conf_ok; auto; [|eapply stripped_textual; eauto|eapply format_given; eauto]. rewrite (number_format _ _ (HFM _ _ HF)), HM2.
    rewrite Z.mod_small by exact Hz. reflexivity.
  - eapply HGo; [|discriminate|reflexivity|eexists; reflexivity|discriminate].
    change (simple_type e (L "float") (stripped l nm)) with (Some (16%Z, do* (f, _) := fmt_conf e fmt_num false (stripped l nm) FmtString 0 in EOk (MFloat f))).
    unfold ebind. rewrite fmt_conf_ok_nomax; auto; [|eapply stripped_textual; eauto|eapply format_given; eauto]. rewrite (number_format _ _ (HFM _ _ HF)). reflexivity.
  - eapply HGo; [|discriminate|reflexivity|eexists; reflexivity|discriminate].
    change (simple_type e (L "string-to") (stripped l nm)) with (Some (32%Z, extradata e "string-to" (stripped l nm) MStringTo)). unfold extradata. rewrite (HE s HS). destruct HS as [_ HS]. rewrite need_text by auto. reflexivity.
  - eapply HGo; [|discriminate|reflexivity|eexists; reflexivity|discriminate].
    change (simple_type e (L "char-to") (stripped l nm)) with (Some (32%Z, extradata e "char-to" (stripped l nm) MCharTo)). unfold extradata. rewrite (HE s HS). destruct HS as [_ HS]. rewrite need_text by auto. reflexivity.
  - eapply HGo; [|discriminate|reflexivity|eexists; reflexivity|discriminate].
    change (simple_type e (L "char-sep") (stripped l nm)) with (Some (32%Z, extradata e "char-sep" (stripped l nm) MCharSep)). unfold extradata. rewrite (HE s HS). destruct HS as [_ HS]. rewrite need_text by auto. reflexivity.
  - eapply HGo; [|discriminate|reflexivity|eexists; reflexivity|discriminate].
    change (simple_type e (L "name-value-list") (stripped l nm)) with (Some (8%Z, @EOk motif (match nv_conf (stripped l nm) with Some (s, a) => MNVList s a | None => MNoData (L "name-value-list") end))).
    assert (EN : nv_conf (stripped l nm) = Some (s, a)); [|rewrite EN; reflexivity].
    unfold nv_conf. rewrite <- !value_get, !HV by discriminate. destruct HS as [c HS (d & HX)|c HS HX]; unfold absent in *; rewrite HS; destruct HX as [HX|x HX]; unfold absent in *; rewrite HX; cbn [one_char];
      destruct HA as [HA|a HA]; unfold absent in *; rewrite HA; reflexivity.
  - eapply HGo; [|discriminate|reflexivity|eexists; reflexivity|discriminate].
    change (simple_type e (L "checkpoint-lea") (stripped l nm)) with (Some (4%Z, do* t := lea_conf e (stripped l nm) NUL in EOk (MLEA t))).
    assert (EN : lea_conf e (stripped l nm) NUL = EOk c); [|rewrite EN; reflexivity].
    assert (HC2 : one_byte (stripped l nm) "terminator" c) by (apply HO; auto; discriminate).
    assert (HCC2 : text_at (stripped l nm) "terminator" [c] \/ absent (stripped l nm) "terminator") by (unfold text_at, absent; rewrite HV by discriminate; exact HCC).
    clear - HD' HC2 HCC2. unfold text_at, absent in HCC2. revert HD' HC2 HCC2. generalize (stripped l nm) as r. clear l nm.
    assert (HA : forall r x, absent r "terminator" -> lea_conf e r x = EOk x).
    { unfold absent. setoid_rewrite value_get. induction r as [|[k v] r IH]; intros x H; [reflexivity|]. cbn [obj_get lea_conf] in *. destruct (text_eqb (L "terminator") k) eqn:E; [discriminate|].
      destruct (text_eqb k (L "terminator")) eqn:E2; [apply text_eqb_true in E2 as ->; discriminate|]. auto. }
    intros r HD HO HC. destruct HC as [[HC HNul]|HC].
    + clear HO. rewrite value_get in HC. revert HC. generalize NUL as x. induction r as [|[k v] r IH]; intros x H; [discriminate|]. cbn [obj_get lea_conf map fst] in *. inversion HD; subst.
      destruct (text_eqb (L "terminator") k) eqn:E.
      * apply text_eqb_true in E as <-. injection H as ->. change (text_eqb (L "terminator") (L "terminator")) with true. cbv iota. rewrite need_text by auto. cbn [ebind]. apply HA. unfold absent. rewrite value_get.
        destruct (obj_get r (L "terminator")) as [v|] eqn:EG; auto. exfalso. apply H2. apply obj_get_In in EG. apply in_map_iff. eexists (_, v). split; [reflexivity|exact EG].
      * destruct (text_eqb k (L "terminator")) eqn:E2; [apply text_eqb_true in E2 as ->; discriminate|]. apply IH; auto.
    + rewrite HA by exact HC. destruct HO as [_|c HO]; [reflexivity|]. rewrite HC in HO. discriminate.
Qed.
End Env.
