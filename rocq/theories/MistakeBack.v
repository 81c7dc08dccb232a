(** * MistakeBack: every message about a field description has its mistake. *)
From Verif Require Import Base Time Parsers Engine Pdag Samp OneSpec LoadText GraphSpec LineSpec RuleSpec LoadSpec TrapSpec Err ErrSpec FrameFacts SimFacts EngineFacts2 BaseFacts TypeFacts ErrFacts ErrQuiet MistakeSpec MistakeFacts MistakeFacts2.

Lemma ne_app {A} (a b : list A) : a ++ b <> [] -> a <> [] \/ b <> [].
Proof. destruct a; [auto|left; discriminate]. Qed.
Lemma say_none {A} (P : Prop) : @nil A <> [] -> P. Proof. tauto. Qed.
Lemma nodup_get l k v : NoDup (map fst l) -> In (k, v) l -> obj_get l k = Some v.
Proof.
  induction l as [|[k0 v0] l IH]; intros HN HI; [destruct HI|]. cbn [map fst] in HN. inversion HN as [|? ? H1 H2]; subst. cbn [obj_get]. destruct HI as [HI|HI].
  - injection HI as -> ->. rewrite text_eqb_refl. reflexivity.
  - destruct (text_eqb k k0) eqn:E; [|auto]. apply text_eqb_true in E. subst k0. destruct H1. apply (in_map fst) in HI. exact HI.
Qed.
Lemma del_gone l k v : NoDup (map fst l) -> ~ In (k, v) (obj_del l k).
Proof.
  induction l as [|[k0 v0] l IH]; intros HN HI; [destruct HI|]. cbn [map fst] in HN. inversion HN as [|? ? H1 H2]; subst. cbn [obj_del] in HI. destruct (text_eqb k k0) eqn:E.
  - apply text_eqb_true in E. subst k0. apply H1. apply (in_map fst) in HI. exact HI.
  - destruct HI as [HI|HI]; [injection HI as -> ->; rewrite text_eqb_refl in E; discriminate|apply IH; auto].
Qed.
Lemma del_nodup l k : NoDup (map fst l) -> NoDup (map fst (obj_del l k)).
Proof.
  induction l as [|[k0 v0] l IH]; intros HN; cbn [obj_del]; [constructor|]. cbn [map fst] in HN. inversion HN as [|? ? H1 H2]; subst. destruct (text_eqb k k0); [exact H2|]. cbn [map fst]. constructor; [|auto].
  intros HI. apply H1. apply in_map_iff in HI as ([k1 v1] & HE & HI). cbn in HE. subst k1. apply In_del in HI. apply (in_map fst) in HI. exact HI.
Qed.

Lemma regular_elem l j : regular (JArr l) -> In j l -> regular j.
Proof. intros [H1 H2] HI. split; [intros HX; apply H1; eapply wi_elem; eauto|intros m HX; apply H2; eapply wi_elem; eauto]. Qed.
Lemma regular_member l k j : regular (JObj l) -> In (k, j) l -> regular j.
Proof. intros [H1 H2] HI. split; [intros HX; apply H1; eapply wi_member; eauto|intros m HX; apply H2; eapply wi_member; eauto]. Qed.
Lemma regular_nonnull l k : regular (JObj l) -> ~ In (k, JNull) l.
Proof. intros [H1 _] HI. apply H1. eapply wi_member; [exact HI|apply wi_here]. Qed.
Lemma one_dec s l : one_of s l \/ ~ one_of s l.
Proof. induction l as [|x l [IH|IH]]; [right; intros H; inversion H|left; right; exact IH|]. destruct (text_eqb s (L x)) eqn:E; [left; left; apply text_eqb_true; exact E|]. right. intros H. inversion H as [? ? H1|? ? H1]; subst; [rewrite text_eqb_refl in E; discriminate|tauto]. Qed.
Lemma one_no s l : (forall x, In x l -> text_eqb s (L x) = false) -> ~ one_of s l.
Proof. intros H HO. apply Exists_exists in HO as (x & HX & ->). specialize (H x HX). rewrite text_eqb_refl in H. discriminate. Qed.
Lemma one_any_no s l : (forall x, In x l -> caseeq s (L x) = false) -> ~ one_of_any_case s l.
Proof. intros H HO. apply Exists_exists in HO as (x & HX & HE). specialize (H x HX). congruence. Qed.

Section Back.
Variable e : env.
Variable badint : json -> bool.
Lemma jstring_some v : v <> JNull -> exists s, jstring e v = Some s.
Proof. destruct v; cbn; eauto. tauto. Qed.

(** [rest] comes from [l]: without type and priority, and without the name unless it is "-" *)
Definition rest_of (l rest : fields) : Prop :=
  (forall k v, In (k, v) rest -> In (k, v) l /\ k <> L "type" /\ k <> L "priority" /\ (k = L "name" -> says_of e l "name" (L "-"))) /\ NoDup (map fst rest).
Lemma rest_back l : regular (JObj l) ->
  rest_of l (match match jget (JObj l) "name" with None | Some JNull => None | Some v => match jstring e v with Some s => if text_eqb s (L "-") then None else Some s | None => None end end with
             Some _ => obj_del (obj_del (obj_del l (L "type")) (L "priority")) (L "name") | None => obj_del (obj_del l (L "type")) (L "priority") end).
Proof.
  intros HG. pose proof (proj2 HG l (wi_here _)) as HN.
  assert (HB : forall k v, In (k, v) (obj_del (obj_del l (L "type")) (L "priority")) -> In (k, v) l /\ k <> L "type" /\ k <> L "priority").
  { intros k v HI. split; [apply In_del in HI; apply In_del in HI; exact HI|]. split; intros ->; [apply In_del in HI; eapply del_gone; eauto|eapply del_gone; [|exact HI]; apply del_nodup; exact HN]. }
  change (jget (JObj l) "name") with (obj_get l (L "name")).
  assert (HP : forall v, obj_get l (L "name") = Some v -> v <> JNull) by (intros v HV ->; apply obj_get_In in HV; eapply regular_nonnull; eauto).
  destruct (obj_get l (L "name")) as [v|] eqn:EN.
  - destruct (jstring_some v (HP v eq_refl)) as (s & HS).
    assert (EM : match v with JNull => None | _ => match jstring e v with Some s => if text_eqb s (L "-") then None else Some s | None => None end end = if text_eqb s (L "-") then None else Some s) by (destruct v; try (rewrite HS; reflexivity); destruct (HP _ eq_refl); reflexivity).
    match goal with |- rest_of l (match ?x with Some _ => _ | None => _ end) => replace x with (if text_eqb s (L "-") then None else Some s) by (symmetry; destruct v; exact EM) end.
    destruct (text_eqb s (L "-")) eqn:ED.
    + split; [|repeat apply del_nodup; exact HN]. intros k v0 HI. destruct (HB k v0 HI) as (A & B & C). split; [exact A|]. split; [exact B|]. split; [exact C|]. intros _. apply text_eqb_true in ED. subst s. exists v. auto.
    + split; [|repeat apply del_nodup; exact HN]. intros k v0 HI. destruct (HB k v0 (In_del _ _ _ HI)) as (A & B & C). split; [exact A|]. split; [exact B|]. split; [exact C|]. intros ->. exfalso. eapply del_gone; [|exact HI]. repeat apply del_nodup. exact HN.
  - split; [|repeat apply del_nodup; exact HN]. intros k v0 HI. destruct (HB k v0 HI) as (A & B & C). split; [exact A|]. split; [exact B|]. split; [exact C|]. intros ->. rewrite (nodup_get l _ v0 HN A) in EN. discriminate.
Qed.

Variable names : list text.
Notation bad := (fun j => wrong e names j \/ quirk e badint j).

Ltac noone := let x := fresh in intros x; cbn [In]; intros; repeat match goal with H : _ \/ _ |- _ => destruct H as [<-|H]; [assumption|] end; tauto.

Lemma back_fmt l T ms vs who colon fmtof usemax : typed e l (L T) -> regular (JObj l) -> In (T, "format"%string, vs) choices -> In (T, ms) members -> In "format"%string ms ->
  (usemax = false \/ (In T ["number"; "hexnumber"]%string)) -> (usemax = true <-> In "maxval"%string ms) -> (forall x, In x ms -> x = "format"%string \/ x = "maxval"%string) ->
  (forall s, fmtof s = None -> ~ one_of s vs) ->
  forall rest, (forall k v, In (k, v) rest -> In (k, v) l /\ k <> L "type" /\ k <> L "priority" /\ (k = L "name" -> says_of e l "name" (L "-"))) -> m_fmt e badint who colon fmtof usemax rest <> [] -> bad (JObj l).
Proof.
  intros HT HG HC HMs HF HU HMx HMs2 HFo rest. induction rest as [|[k v] rest IH]; intros HR H; cbn [m_fmt] in H; [tauto|]. apply ne_app in H as [H|H]; [|apply IH; auto; intros; apply HR; right; auto].
  destruct (HR k v (or_introl eq_refl)) as (HI & H1 & H2 & H3). pose proof (nodup_get l k v (proj2 HG l (wi_here _)) HI) as HGet.
  destruct (usemax && text_eqb k (L "maxval"))%bool eqn:EM.
  - apply andb_prop in EM as [-> EM]. apply text_eqb_true in EM. subst k. destruct (badint v) eqn:EB; [|tauto]. right. destruct HU as [HU|HU]; [discriminate|]. eapply qu_maxval; eauto.
  - destruct (text_eqb k (L "format")) eqn:EF.
    + apply text_eqb_true in EF. subst k. destruct (jstring e v) as [s|] eqn:ES; [|tauto]. destruct (fmtof s) eqn:EO; [tauto|]. left. eapply wr_choice; [exact HC|exact HT|exists v; eauto|apply HFo; exact EO].
    + destruct (text_eqb k (L "name")) eqn:EN.
      * apply text_eqb_true in EN. subst k. destruct (H3 eq_refl) as (w & HW & HS). assert (w = v) by congruence. subst w. rewrite HS, text_eqb_refl in H. cbn in H. tauto.
      * left. eapply wr_member; [exact HMs|exact HT|exact HI|]. apply one_no. intros x Hx. cbn [In] in Hx.
        destruct Hx as [<-|[<-|[<-|Hx]]]; [destruct (text_eqb k (L "type")) eqn:EX; auto; apply text_eqb_true in EX; tauto|exact EN|destruct (text_eqb k (L "priority")) eqn:EX; auto; apply text_eqb_true in EX; tauto|].
        destruct (HMs2 x Hx) as [-> | ->]; [exact EF|]. rewrite (proj2 HMx Hx) in EM. exact EM.
Qed.
Lemma back_string l : typed e l (L "string") -> regular (JObj l) -> forall rest, (forall k v, In (k, v) rest -> In (k, v) l /\ k <> L "type" /\ k <> L "priority" /\ (k = L "name" -> says_of e l "name" (L "-"))) ->
  m_string e rest <> [] -> bad (JObj l).
Proof.
  intros HT HG. induction rest as [|[k v] rest IH]; intros HR H; [tauto|]. assert (HRest : m_string e rest <> [] -> bad (JObj l)) by (intros HX; apply IH; auto; intros; apply HR; right; auto).
  destruct (HR k v (or_introl eq_refl)) as (HI & H1 & H2 & H3). cbn [m_string] in H. cbv zeta in H.
  assert (HV : v <> JNull) by (intros ->; eapply regular_nonnull; eauto). destruct (jstring_some v HV) as (s & HS). rewrite HS in H.
  destruct (caseeq k (L "quoting.mode")) eqn:E1.
  { destruct (_ || _)%bool eqn:EC in H; [auto|]. apply Bool.orb_false_iff in EC as [EC X3]. apply Bool.orb_false_iff in EC as [X1 X2]. left. eapply wr_string_choice; [left; reflexivity|exact HT|exact HI|exact E1|exact HS|]. apply one_any_no. cbn [In]. intros x [<-|[<-|[<-|[]]]]; assumption. }
  destruct (caseeq k (L "quoting.escape.mode")) eqn:E2.
  { destruct (_ || _)%bool eqn:EC in H; [auto|]. apply Bool.orb_false_iff in EC as [EC X4]. apply Bool.orb_false_iff in EC as [EC X3]. apply Bool.orb_false_iff in EC as [X1 X2]. left. eapply wr_string_choice; [right; left; reflexivity|exact HT|exact HI|exact E2|exact HS|]. apply one_any_no. cbn [In]. intros x [<-|[<-|[<-|[<-|[]]]]]; assumption. }
  assert (HQ : forall msg, caseeq k (L "quoting.char.begin") = true \/ caseeq k (L "quoting.char.end") = true -> match s with [_] => m_string e rest | _ => [quote msg s] end <> [] -> bad (JObj l)).
  { intros msg HK HX. destruct s as [|c1 [|c2 s]]; [left|auto|left]; (eapply wr_quote_char; [exact HT|exact HI| |exact HS|cbn; lia]; apply Exists_exists; destruct HK as [HK|HK]; eexists; (split; [|exact HK]); cbn; tauto). }
  destruct (caseeq k (L "quoting.char.begin")) eqn:E3; [eapply HQ; eauto|]. destruct (caseeq k (L "quoting.char.end")) eqn:E4; [eapply HQ; eauto|].
  destruct (caseeq k (L "matching.permitted")) eqn:E5.
  { apply ne_app in H as [H|H]; [|auto]. destruct v as [| | | | |a|a]; try (left; eapply wr_permitted; [exact HT|exact HI|exact E5|discriminate|discriminate]); try tauto.
    left. assert (HX : exists m, In (JObj m) a /\ m_perm e m <> []).
    { clear -H. unfold m_perm_array in H. induction a as [|x a IH]; [tauto|]. cbn [flat_map] in H. apply ne_app in H as [H|H]; [destruct x; try tauto; eexists; split; [left; reflexivity|exact H]|]. destruct (IH H) as (m & A & B). exists m. split; [right; exact A|exact B]. }
    destruct HX as (m & HM & HX). assert (HY : exists k' w z, In (k', w) m /\ caseeq k' (L "class") = true /\ jstring e w = Some z /\ known_class z = false).
    { clear -HX. induction m as [|[k' w] m IH]; [cbn in HX; tauto|]. cbn [m_perm] in HX. apply ne_app in HX as [H|H].
      - destruct (caseeq k' (L "class")) eqn:EK; [|rewrite andb_false_r in H; tauto]. destruct (negb _ && true)%bool; [|tauto]. destruct (jstring e w) as [z|] eqn:EZ; [|tauto]. destruct (known_class z) eqn:EC; [tauto|]. exists k', w, z. split; [left; reflexivity|]. auto.
      - destruct (IH H) as (k2 & w2 & z & A & B). exists k2, w2, z. split; [right; exact A|exact B]. }
    destruct HY as (k' & w & z & A1 & A2 & A3 & A4). eapply wr_class; [exact HT|exact HI|exact E5|exact HM|exact A1|exact A2|exact A3|]. unfold known_class in A4. apply Bool.orb_false_iff in A4 as [A4 X4]. apply Bool.orb_false_iff in A4 as [A4 X3]. apply Bool.orb_false_iff in A4 as [X1 X2].
    apply one_any_no. cbn [In]. intros x [<-|[<-|[<-|[<-|[]]]]]; assumption. }
  destruct (caseeq k (L "matching.mode")) eqn:E6.
  { destruct (_ || _)%bool eqn:EC in H; [auto|]. apply Bool.orb_false_iff in EC as [X1 X2]. left. eapply wr_string_choice; [right; right; left; reflexivity|exact HT|exact HI|exact E6|exact HS|]. apply one_any_no. cbn [In]. intros x [<-|[<-|[]]]; assumption. }
  destruct (text_eqb k (L "name")) eqn:EN.
  - apply text_eqb_true in EN. right. eapply qu_dash; [left; reflexivity|exact HT|auto].
  - left. eapply wr_member_any_case; [left; reflexivity|exact HT|exact HI| |].
    + apply one_no. cbn [In]. intros x [<-|[<-|[<-|[]]]]; [destruct (text_eqb k (L "type")) eqn:EX; auto; apply text_eqb_true in EX; tauto|exact EN|destruct (text_eqb k (L "priority")) eqn:EX; auto; apply text_eqb_true in EX; tauto].
    + apply one_any_no. cbn [In]. intros x [<-|[<-|[<-|[<-|[<-|[<-|[]]]]]]]; assumption.
Qed.

Lemma back_need T k msg l rest : In (T, k) needs -> typed e l (L T) -> ~ one_of (L k) plain_keys -> rest_ok l rest -> m_need k msg rest <> [] -> bad (JObj l).
Proof. intros HI HT HK [_ HR] H. unfold m_need in H. destruct (obj_get rest (L k)) eqn:E; [tauto|]. left. eapply wr_missing; eauto. rewrite <- HR; auto. Qed.
Lemma back_lea l : typed e l (L "checkpoint-lea") -> regular (JObj l) -> forall rest, (forall k v, In (k, v) rest -> In (k, v) l) -> m_lea e rest <> [] -> bad (JObj l).
Proof.
  intros HT HG. induction rest as [|[k v] rest IH]; intros HR H; cbn [m_lea] in H; [tauto|]. assert (HRest : m_lea e rest <> [] -> bad (JObj l)) by (intros HX; apply IH; auto; intros; apply HR; right; auto).
  destruct (text_eqb k (L "terminator")) eqn:EK; [|auto]. apply text_eqb_true in EK. subst k. pose proof (HR _ _ (or_introl eq_refl)) as HI. destruct (jstring e v) as [s|] eqn:ES; [|tauto].
  assert (HL : List.length s <> 1 -> bad (JObj l)) by (intros HL; left; eapply wr_lea_char; [exact HT|exists v; split; [apply nodup_get; [apply (proj2 HG); apply wi_here|exact HI]|exact ES]|exact HL]).
  destruct s as [|c1 [|c2 s]]; [apply HL; cbn; lia|auto|apply HL; cbn; lia].
Qed.
Lemma back_nv l rest : typed e l (L "name-value-list") -> rest_ok l rest -> m_nv rest <> [] -> bad (JObj l).
Proof.
  intros HT [_ HR] H. unfold m_nv in H. cbv beta zeta in H.
  assert (HB : forall k, In k ["extradata"; "separator"; "assignator"]%string -> match obj_get rest (L k) with Some v => match one_char v with Some _ => false | None => true end | None => false end = true -> bad (JObj l)).
  { intros k HK HX. rewrite HR in HX by (destruct HK as [<-|[<-|[<-|[]]]]; apply not_plain; reflexivity). destruct (obj_get l (L k)) as [v|] eqn:EG; [|discriminate]. left. eapply wr_nv_char; eauto. intros c ->. cbn in HX. discriminate. }
  match goal with H : (if ?b then _ else _) <> [] |- _ => destruct b eqn:E1 end; [eapply HB; [|exact E1]; cbn; tauto|].
  match goal with H : (if ?b then _ else _) <> [] |- _ => destruct b eqn:E2 end; [eapply HB; [|exact E2]; cbn; tauto|].
  match goal with H : (if ?b then _ else _) <> [] |- _ => destruct b eqn:E3 end; [eapply HB; [|exact E3]; cbn; tauto|]. tauto.
Qed.
Lemma fmt_num_none s : fmt_num s = None -> ~ one_of s ["number"; "string"]%string.
Proof. unfold fmt_num. destruct (text_eqb s (L "number")) eqn:E1; [discriminate|]. destruct (text_eqb s (L "string")) eqn:E2; [discriminate|]. intros _. apply one_no. cbn [In]. intros x [<-|[<-|[]]]; assumption. Qed.
Lemma fmt_date_none s : fmt_date s = None -> ~ one_of s ["string"; "timestamp-unix"; "timestamp-unix-ms"]%string.
Proof. unfold fmt_date. destruct (text_eqb s (L "timestamp-unix")) eqn:E1; [discriminate|]. destruct (text_eqb s (L "timestamp-unix-ms")) eqn:E2; [discriminate|]. destruct (text_eqb s (L "string")) eqn:E3; [discriminate|]. intros _. apply one_no. cbn [In]. intros x [<-|[<-|[<-|[]]]]; assumption. Qed.
Lemma back_simple l T rest : typed e l T -> regular (JObj l) -> rest_ok l rest -> rest_of l rest -> m_simple e badint T rest <> [] -> bad (JObj l).
Proof.
  intros HT HG HO [HR _] H. unfold m_simple in H.
  assert (HF : forall t ms vs who colon fmtof usemax, T = L t -> In (t, "format"%string, vs) choices -> In (t, ms) members -> In "format"%string ms -> (usemax = false \/ In t ["number"; "hexnumber"]%string) -> (usemax = true <-> In "maxval"%string ms) ->
     (forall x, In x ms -> x = "format"%string \/ x = "maxval"%string) -> (forall s, fmtof s = None -> ~ one_of s vs) -> m_fmt e badint who colon fmtof usemax rest <> [] -> bad (JObj l)) by (intros; subst T; eapply back_fmt; eauto).
  destruct (text_eqb T (L "literal")) eqn:E1; [apply text_eqb_true in E1; subst T; eapply back_need; [left; reflexivity|exact HT|apply not_plain; reflexivity|exact HO|exact H]|].
  assert (HNM : false = true <-> In "maxval"%string ["format"%string]) by (split; [discriminate|intros [HX|[]]; discriminate]).
  assert (HYM : true = true <-> In "maxval"%string ["format"; "maxval"]%string) by (split; [intros _; cbn; tauto|reflexivity]).
  assert (HM1 : forall x, In x ["format"%string] -> x = "format"%string \/ x = "maxval"%string) by (cbn; intros x [<-|[]]; auto).
  assert (HM2 : forall x, In x ["format"; "maxval"]%string -> x = "format"%string \/ x = "maxval"%string) by (cbn; intros x [<-|[<-|[]]]; auto).
  destruct (text_eqb T (L "date-rfc3164")) eqn:E2; [apply text_eqb_true in E2; eapply (HF "date-rfc3164"%string); [exact E2|cbn; do 3 right; left; reflexivity|cbn; do 3 right; left; reflexivity|left; reflexivity|left; reflexivity|exact HNM|exact HM1|exact fmt_date_none|exact H]|].
  destruct (text_eqb T (L "date-rfc5424")) eqn:E3; [apply text_eqb_true in E3; eapply (HF "date-rfc5424"%string); [exact E3|cbn; do 4 right; left; reflexivity|cbn; do 4 right; left; reflexivity|left; reflexivity|left; reflexivity|exact HNM|exact HM1|exact fmt_date_none|exact H]|].
  destruct (text_eqb T (L "number")) eqn:E4; [apply text_eqb_true in E4; eapply (HF "number"%string); [exact E4|cbn; left; reflexivity|cbn; left; reflexivity|left; reflexivity|right; left; reflexivity|exact HYM|exact HM2|exact fmt_num_none|exact H]|].
  destruct (text_eqb T (L "float")) eqn:E5; [apply text_eqb_true in E5; eapply (HF "float"%string); [exact E5|cbn; right; left; reflexivity|cbn; right; left; reflexivity|left; reflexivity|left; reflexivity|exact HNM|exact HM1|exact fmt_num_none|exact H]|].
  destruct (text_eqb T (L "hexnumber")) eqn:E6; [apply text_eqb_true in E6; eapply (HF "hexnumber"%string); [exact E6|cbn; do 2 right; left; reflexivity|cbn; do 2 right; left; reflexivity|left; reflexivity|right; right; left; reflexivity|exact HYM|exact HM2|exact fmt_num_none|exact H]|].
  destruct (text_eqb T (L "name-value-list")) eqn:E7; [apply text_eqb_true in E7; subst T; eapply back_nv; eauto|].
  destruct (text_eqb T (L "checkpoint-lea")) eqn:E8; [apply text_eqb_true in E8; subst T; apply (back_lea l HT HG rest); [intros; apply HR; auto|exact H]|].
  destruct (text_eqb T (L "string-to")) eqn:E9; [apply text_eqb_true in E9; subst T; eapply back_need; [cbn; do 1 right; left; reflexivity|exact HT|apply not_plain; reflexivity|exact HO|exact H]|].
  destruct (text_eqb T (L "char-to")) eqn:E10; [apply text_eqb_true in E10; subst T; eapply back_need; [cbn; do 2 right; left; reflexivity|exact HT|apply not_plain; reflexivity|exact HO|exact H]|].
  destruct (text_eqb T (L "char-sep")) eqn:E11; [apply text_eqb_true in E11; subst T; eapply back_need; [cbn; do 3 right; left; reflexivity|exact HT|apply not_plain; reflexivity|exact HO|exact H]|].
  destruct (text_eqb T (L "string")) eqn:E12; [apply text_eqb_true in E12; subst T; eapply back_string; eauto|]. tauto.
Qed.
Lemma simple_known T : simple_type e T [] = None -> T <> L "repeat" -> ~ one_of T type_names.
Proof. intros H HR HO. apply Exists_exists in HO as (x & HX & ->). cbn [type_names In] in HX. repeat (destruct HX as [<-|HX]; [first [discriminate H|destruct (HR eq_refl)]|]). destruct HX. Qed.

Section Add.
Variable addp : ctx -> nat -> json -> er (ctx * option (option nat)).
Variable m_addp : ctx -> nat -> json -> list body.
Hypothesis Htypes : forall cx n v cx' o, addp cx n v = EOk (cx', o) -> c_types cx' = c_types cx.
Hypothesis Hnone : forall cx n v cx', addp cx n v = EOk (cx', None) -> m_addp cx n v <> [].
Hypothesis Hback : forall cx n v r, map fst (c_types cx) = names -> regular v -> addp cx n v = EOk r -> m_addp cx n v <> [] -> somewhere e bad v.

Lemma dots_back l : forall d, count_dots e l = EOk d -> 0 < d -> exists j s, In j l /\ exists f, j = JObj f /\ says_of e f "name" s /\ s = L ".".
Proof.
  induction l as [|j l IH]; intros d H HD; cbn [count_dots] in H; [injection H as <-; lia|]. apply ebind_ok in H as (a & H1 & H). apply ebind_ok in H as (b & H2 & H). assert (d = a + b) as -> by congruence.
  destruct a as [|a].
  - destruct (IH b H2 ltac:(lia)) as (j0 & s & HI & HX). exists j0, s. split; [right; exact HI|exact HX].
  - unfold is_dot in H1. destruct j as [| | | | |l0|f]; cbn [jget] in H1; try discriminate. destruct (obj_get f (L "name")) as [v|] eqn:EG; [|discriminate].
    assert (HV : exists s, jstring e v = Some s /\ (if text_eqb s (L ".") then 1 else 0) = S a).
    { unfold need_str in H1. destruct v; try discriminate; cbn [jstring ebind] in *; eexists; (split; [reflexivity|congruence]). }
    destruct HV as (s & HS & HE). destruct (text_eqb s (L ".")) eqn:ED; [|discriminate]. apply text_eqb_true in ED. exists (JObj f), s. split; [left; reflexivity|]. exists f. split; [reflexivity|]. split; [exists v; auto|exact ED].
Qed.
Lemma back_dots l v : typed e l (L "repeat") -> In (L "parser", v) l -> chkNoDupeDot e v = EOk false -> bad (JObj l).
Proof.
  intros HT HI H. unfold chkNoDupeDot in H. destruct v as [| | | | |fs|]; try discriminate. apply ebind_ok in H as (d & H1 & H2). assert (E : (Nat.ltb 1 (List.length fs) && Nat.ltb 0 d)%bool = true) by (destruct (_ && _)%bool; [reflexivity|discriminate]).
  apply andb_prop in E as [E1 E2]. apply Nat.ltb_lt in E1, E2. destruct (dots_back fs d H1 E2) as (j & s & HJ & f & -> & HS & HE). left. eapply wr_dot; eauto.
Qed.
Lemma back_repeat_conf l : typed e l (L "repeat") -> regular (JObj l) -> forall rest pn wn permit permit' cx x,
  (forall k v, In (k, v) rest -> In (k, v) l /\ k <> L "type" /\ k <> L "priority" /\ (k = L "name" -> says_of e l "name" (L "-"))) -> map fst (c_types cx) = names ->
  repeat_conf e addp rest pn wn permit cx = EOk x ->
  (m_repeat_conf e addp m_addp rest pn wn permit' cx <> [] -> somewhere e bad (JObj l)) /\
  (match x with (_, pn', wn', _) => (forall v, In (L "parser", v) rest -> pn' = None -> somewhere e bad (JObj l)) /\ (forall v, In (L "while", v) rest -> wn' = None -> somewhere e bad (JObj l)) /\ (pn <> None -> pn' <> None) /\ (wn <> None -> wn' <> None) end).
Proof.
  intros HT HG. induction rest as [|[k v] rest IH]; intros pn wn permit permit' cx x HR HN H; cbn [repeat_conf m_repeat_conf] in *.
  { injection H as <-. split; [tauto|]. cbn. tauto. }
  destruct (HR k v (or_introl eq_refl)) as (HI & H1 & H2 & H3).
  assert (HRest : forall k v, In (k, v) rest -> In (k, v) l /\ k <> L "type" /\ k <> L "priority" /\ (k = L "name" -> says_of e l "name" (L "-"))) by (intros; apply HR; right; auto).
  unfold newPDAG in *. cbv beta iota zeta in *.
  assert (HIn : k = L "parser" \/ k = L "while" -> somewhere e bad v -> somewhere e bad (JObj l)) by (intros HK HX; eapply mi_repeat; eauto).
  destruct (text_eqb k (L "parser")) eqn:EK.
  - apply text_eqb_true in EK. subst k. apply ebind_ok in H as (good & HC & H). unfold m_dots. rewrite HC. destruct good; cbn [negb] in H.
    + apply ebind_ok in H as ([c1 en] & HA & H). rewrite HA.
      assert (HM : m_addp (set_nodes cx (c_nodes cx ++ [Some new_node])) (List.length (c_nodes cx)) v <> [] -> somewhere e bad (JObj l)) by (intros HX; apply HIn; auto; eapply Hback; [|eapply regular_member; eauto|exact HA|exact HX]; exact HN).
      destruct en as [[en|]|]; [|discriminate|].
      * destruct (IH (Some (List.length (c_nodes cx))) wn permit permit' (set_nodes c1 (upd_node (c_nodes c1) en set_term)) x HRest) as [IH1 IH2]; [cbn [c_types set_nodes]; rewrite (Htypes _ _ _ _ _ HA); exact HN|exact H|].
        split; [intros HX; apply ne_app in HX as [HX|HX]; auto|]. destruct x as [[[c2 pn'] wn'] pm']. destruct IH2 as (A & B & C & D). split; [|split; [|split; [|exact D]]].
        -- intros v0 _ HP. destruct (C ltac:(discriminate) HP).
        -- intros v0 [HX|HX] HP; [discriminate|eapply B; eauto].
        -- intros _. apply C. discriminate.
      * injection H as <-. apply Hnone in HA as HA2. split; [intros _; auto|]. split; [intros v0 _ HP; discriminate|]. split; [intros v0 _ _; auto|]. split; [discriminate|tauto].
    + injection H as <-. assert (HB : somewhere e bad (JObj l)) by (apply mi_here; eapply back_dots; eauto). split; [auto|]. split; [auto|]. split; [auto|]. tauto.
  - destruct (text_eqb k (L "while")) eqn:EW.
    + apply text_eqb_true in EW. subst k. apply ebind_ok in H as ([c1 en] & HA & H). rewrite HA.
      assert (HM : m_addp (set_nodes cx (c_nodes cx ++ [Some new_node])) (List.length (c_nodes cx)) v <> [] -> somewhere e bad (JObj l)) by (intros HX; apply HIn; auto; eapply Hback; [|eapply regular_member; eauto|exact HA|exact HX]; exact HN).
      destruct en as [[en|]|]; [|discriminate|].
      * destruct (IH pn (Some (List.length (c_nodes cx))) permit permit' (set_nodes c1 (upd_node (c_nodes c1) en set_term)) x HRest) as [IH1 IH2]; [cbn [c_types set_nodes]; rewrite (Htypes _ _ _ _ _ HA); exact HN|exact H|].
        split; [intros HX; apply ne_app in HX as [HX|HX]; auto|]. destruct x as [[[c2 pn'] wn'] pm']. destruct IH2 as (A & B & C & D). split; [|split; [|split; [exact C|]]].
        -- intros v0 [HX|HX] HP; [discriminate|eapply A; eauto].
        -- intros v0 _ HP. destruct (D ltac:(discriminate) HP).
        -- intros _. apply D. discriminate.
      * injection H as <-. apply Hnone in HA as HA2. split; [intros _; auto|]. split; [intros v0 _ _; auto|]. split; [intros v0 _ HP; discriminate|]. split; [tauto|discriminate].
    + assert (HK : forall pm, repeat_conf e addp rest pn wn pm cx = EOk x ->
         (m_repeat_conf e addp m_addp rest pn wn permit' cx <> [] -> somewhere e bad (JObj l)) /\
         (match x with (_, pn', wn', _) => (forall v0, In (L "parser", v0) ((k, v) :: rest) -> pn' = None -> somewhere e bad (JObj l)) /\ (forall v0, In (L "while", v0) ((k, v) :: rest) -> wn' = None -> somewhere e bad (JObj l)) /\ (pn <> None -> pn' <> None) /\ (wn <> None -> wn' <> None) end)).
      { intros pm HE. destruct (IH pn wn pm permit' cx x HRest HN HE) as [IH1 IH2]. split; [exact IH1|]. destruct x as [[[c2 pn'] wn'] pm']. destruct IH2 as (A & B & C & D). split; [|split; [|split; [exact C|exact D]]].
        - intros v0 [HX|HX] HP; [injection HX as -> ->; rewrite text_eqb_refl in EK; discriminate|eapply A; eauto].
        - intros v0 [HX|HX] HP; [injection HX as -> ->; rewrite text_eqb_refl in EW; discriminate|eapply B; eauto]. }
      destruct (caseeq k (L "option.permitMismatchInParser")) eqn:EO; [eapply HK; exact H|]. destruct (HK _ H) as [K1 K2]. split; [|exact K2]. intros _. apply mi_here.
      destruct (text_eqb k (L "name")) eqn:EN; [apply text_eqb_true in EN; right; eapply qu_dash; [right; left; reflexivity|exact HT|auto]|].
      left. eapply wr_member_any_case; [right; left; reflexivity|exact HT|exact HI| |].
      * apply one_no. cbn [In]. intros y [<-|[<-|[<-|[<-|[<-|[]]]]]]; [destruct (text_eqb k (L "type")) eqn:EX; auto; apply text_eqb_true in EX; tauto|exact EN|destruct (text_eqb k (L "priority")) eqn:EX; auto; apply text_eqb_true in EX; tauto|exact EK|exact EW].
      * apply one_any_no. cbn [In]. intros y [<-|[]]. exact EO.
Qed.
Lemma back_repeat l rest cx y : typed e l (L "repeat") -> regular (JObj l) -> rest_ok l rest -> rest_of l rest -> map fst (c_types cx) = names -> construct_repeat e addp rest cx = EOk y ->
  m_repeat e addp m_addp rest cx <> [] -> somewhere e bad (JObj l).
Proof.
  intros HT HG [HO1 HO2] [HR _] HN HC H. unfold construct_repeat in HC. apply ebind_ok in HC as (x & HC & _). destruct (back_repeat_conf l HT HG rest None None false false cx x HR HN HC) as [A B]. unfold m_repeat in H. apply ne_app in H as [H|H]; [auto|]. rewrite HC in H.
  destruct x as [[[c2 pn'] wn'] pm']. destruct B as (B1 & B2 & _ & _).
  assert (HK : forall k, k = "parser"%string \/ k = "while"%string -> (forall v, In (L k, v) rest -> somewhere e bad (JObj l)) -> somewhere e bad (JObj l)).
  { intros k HK HX. destruct (obj_get rest (L k)) as [v|] eqn:EG; [apply (HX v); apply obj_get_In; exact EG|]. apply mi_here. left. eapply wr_missing; [|exact HT|rewrite <- HO2; [exact EG|destruct HK as [-> | ->]; apply not_plain; reflexivity]]. destruct HK as [-> | ->]; cbn; tauto. }
  destruct pn' as [pn'|]; [destruct wn' as [wn'|]; [tauto|]|]; [apply (HK "while"%string); eauto|apply (HK "parser"%string); eauto].
Qed.
(** a field *)
Lemma back_new l cx r : regular (JObj l) -> map fst (c_types cx) = names -> newParser e addp cx (JObj l) = EOk r -> m_newParser e badint addp m_addp cx (JObj l) <> [] -> somewhere e bad (JObj l) \/ typed e l (L "alternative").
Proof.
  intros HG HN HE H.
  destruct (obj_get l (L "type")) as [tv|] eqn:EG; [|left; apply mi_here; left; apply wr_untyped; exact EG].
  assert (HV : tv <> JNull) by (intros ->; apply obj_get_In in EG; eapply regular_nonnull; eauto). destruct (jstring_some tv HV) as (T & HS). assert (HT : typed e l T) by (exists tv; auto).
  destruct (at_sign T) eqn:EA.
  - left. apply mi_here. left. apply (wr_type _ _ l T); auto.
    + intros ->. discriminate.
    + intros HO. apply Exists_exists in HO as (x & HX & ->). cbn [type_names In] in HX. repeat (destruct HX as [<-|HX]; [discriminate EA|]). destruct HX.
    + intros (T' & HE2 & HI). revert H. unfold m_newParser. change (jget (JObj l) "type") with (obj_get l (L "type")). rewrite EG.
      assert (HF : exists i, findType (c_types cx) T 0 = Some i).
      { rewrite <- HN in HI. apply in_map_iff in HI as ([n d] & HQ & HI). cbn in HQ. subst n. clear -HI. generalize 0. induction (c_types cx) as [|[n0 d0] ts IH]; intros i; [destruct HI|]. cbn [findType]. destruct (text_eqb n0 T) eqn:E; [eauto|]. destruct HI as [HI|HI]; [injection HI as -> ->; rewrite text_eqb_refl in E; discriminate|apply IH; auto]. }
      destruct HF as (i & HF). destruct tv; try (destruct (HV eq_refl)); rewrite HS; cbv zeta; fold (at_sign T); rewrite EA, HF; tauto.
  - destruct (newParser_typed e badint addp m_addp l T cx r HT EA HE) as [HX1 HX2]. destruct (text_eqb T (L "repeat")) eqn:ER.
    + apply text_eqb_true in ER. subst T. left. destruct (HX1 eq_refl) as (rest & y & [HO HR] & HC & HM). rewrite HM in H. eapply back_repeat; [exact HT|exact HG|exact HO| |exact HN|exact HC|exact H]. rewrite HR. apply rest_back. exact HG.
    + assert (HNR : T <> L "repeat") by (intros ->; rewrite text_eqb_refl in ER; discriminate).
      destruct (simple_type e T []) as [pm|] eqn:ES.
      * left. apply mi_here. pose proof (rest_back l HG) as HRB. fold (rest_for e l) in HRB. assert (HO : rest_ok l (rest_for e l)) by (unfold rest_for; apply (rest_is badint)).
        assert (HM : m_newParser e badint addp m_addp cx (JObj l) = m_simple e badint T (rest_for e l)).
        { unfold m_newParser, rest_for. change (jget (JObj l) "type") with (obj_get l (L "type")). rewrite EG. destruct tv; try (destruct (HV eq_refl)); rewrite HS; cbv zeta; fold (at_sign T); rewrite EA, ER, ES; reflexivity. }
        rewrite HM in H. eapply back_simple; [exact HT|exact HG|exact HO|exact HRB|exact H].
      * destruct (text_eqb T (L "alternative")) eqn:EL; [right; apply text_eqb_true in EL; subst T; exact HT|]. left. apply mi_here. left. apply (wr_type _ _ l T); auto.
        -- intros ->. rewrite text_eqb_refl in EL. discriminate.
        -- apply simple_known; auto.
        -- intros (T' & -> & _). discriminate.
Qed.
End Add.

Section Loop.
Variable addp : ctx -> nat -> json -> er (ctx * option (option nat)).
Variable m_addp : ctx -> nat -> json -> list body.
Hypothesis HA : addp_fr 0 addp.
Hypothesis Hnone : forall cx n v cx', addp cx n v = EOk (cx', None) -> m_addp cx n v <> [].
Hypothesis Hback : forall cx n v r, map fst (c_types cx) = names -> regular v -> addp cx n v = EOk r -> m_addp cx n v <> [] -> somewhere e bad v.
Variable inner : ctx -> amode -> option nat -> json -> option nat -> ares.
Variable m_inner : ctx -> amode -> option nat -> json -> option nat -> list body.
Hypothesis HI : inner_fr 0 inner.
Hypothesis Iback : forall cx mode dag conf next r, map fst (c_types cx) = names -> regular conf -> inner cx mode dag conf next = EOk r -> m_inner cx mode dag conf next <> [] -> somewhere e bad conf.

Lemma back_inst conf cx dag next r : (forall l, conf <> JArr l) -> regular conf -> map fst (c_types cx) = names -> addInstance e addp cx conf dag next = EOk r -> m_newParser e badint addp m_addp cx conf <> [] ->
  somewhere e bad conf \/ exists l, conf = JObj l /\ typed e l (L "alternative").
Proof.
  intros HC HG HN H HM. unfold addInstance in H. apply ebind_ok in H as (x & H & _).
  destruct conf as [| | | | |l|l]; try (left; apply mi_here; left; apply wr_kind; discriminate); [destruct (HC l); reflexivity|].
  destruct (back_new addp m_addp (addp_types addp HA) Hnone Hback l cx x HG HN H HM) as [HX|HX]; eauto.
Qed.
Lemma back_loop : forall l cx mode dag next pnext r, map fst (c_types cx) = names -> Forall regular l -> addParsers_loop e addp inner cx mode l dag next pnext = EOk r ->
  m_addParsers_loop e badint addp m_addp inner m_inner cx mode l dag next pnext <> [] -> exists j, In j l /\ (somewhere e bad j \/ exists l0, j = JObj l0 /\ typed e l0 (L "alternative")).
Proof.
  induction l as [|j l IH]; intros cx mode dag next pnext r HN HG H HM; cbn [addParsers_loop m_addParsers_loop] in *; [tauto|]. pose proof (Forall_inv HG) as HG1. pose proof (Forall_inv_tail HG) as HG2.
  apply ebind_ok in H as ([c1 o] & H1 & H2). rewrite H1 in HM.
  assert (HC : map fst (c_types c1) = map fst (c_types cx)).
  { f_equal. destruct j as [| | | | |l0|l0]; apply ebind_ok in H1 as ([c2 o2] & H1 & H3); assert (EC : c2 = c1) by congruence; subst c2; (try (eapply inst_types; [exact HA|exact H1])). eapply inner_types; [exact HI|exact H1]. }
  apply ne_app in HM as [HM|HM].
  - exists j. split; [left; reflexivity|]. destruct j as [| | | | |l0|l0]; apply ebind_ok in H1 as (x & H1 & _); try (eapply back_inst; [discriminate|exact HG1|exact HN|exact H1|exact HM]). left. eapply Iback; [exact HN|exact HG1|exact H1|exact HM].
  - destruct o as [[d nx]|]; [|tauto]. destruct mode; (eapply IH in HM as (j0 & HJ & HX); [exists j0; split; [right; exact HJ|exact HX]|rewrite HC; exact HN|exact HG2|exact H2]).
Qed.
Lemma back_step cx mode dag conf next r : map fst (c_types cx) = names -> regular conf -> addInternal_step e addp inner cx mode dag conf next = EOk r ->
  m_addInternal_step e badint addp m_addp inner m_inner cx mode dag conf next <> [] -> somewhere e bad conf.
Proof.
  intros HN HG. unfold addInternal_step, m_addInternal_step. destruct conf as [| | | | |l|l]; try (intros _ _; apply mi_here; left; apply wr_kind; discriminate).
  - intros H HM. apply (back_loop l) in H; auto; [|apply Forall_forall; intros; eapply regular_elem; eauto]. destruct H as (j & HJ & [HX|(l0 & -> & HX)]); [eapply mi_elem; eauto|]. apply mi_here. right. eapply qu_array; eauto.
  - change (jget (JObj l) "type") with (obj_get l (L "type")). destruct (obj_get l (L "type")) as [tv|] eqn:EG; [|discriminate].
    assert (HV : tv <> JNull) by (intros ->; apply obj_get_In in EG; eapply regular_nonnull; eauto). destruct (jstring_some tv HV) as (T & HS). assert (HT : typed e l T) by (exists tv; auto).
    intros H. assert (H' : (if text_eqb T (L "alternative") then
       match jget (JObj l) "parser" with Some (JArr ps) => addParsers_loop e addp inner cx Alt ps dag next next | _ => EOk (cx, None) end
       else do* (cx, r) := addInstance e addp cx (JObj l) dag next in EOk (cx, match r with None => None | Some nx => Some (match mode with Seq => Some nx | Alt => dag end, Some nx) end)) = EOk r).
    { revert H. unfold need_str. destruct tv; try (destruct (HV eq_refl); fail); rewrite HS; cbn [ebind]; auto. }
    clear H. rewrite HS. destruct (text_eqb T (L "alternative")) eqn:EA.
    + apply text_eqb_true in EA. subst T. change (jget (JObj l) "parser") with (obj_get l (L "parser")) in *. destruct (obj_get l (L "parser")) as [v|] eqn:EP; [|intros _; apply mi_here; left; apply wr_alternative; [exact HT|rewrite EP; discriminate]].
      destruct v as [| | | | |ps|]; try (intros _; apply mi_here; left; apply wr_alternative; [exact HT|rewrite EP; discriminate]).
      intros HM. apply (back_loop ps) in H'; auto; [|apply Forall_forall; intros; eapply regular_elem; [eapply regular_member; [exact HG|apply obj_get_In; exact EP]|assumption]].
      destruct H' as (j & HJ & [HX|(l0 & -> & HX)]); [eapply mi_alternative; eauto|]. apply mi_here. right. eapply qu_nested; eauto.
    + intros HM. apply ebind_ok in H' as (x & H & _). eapply back_inst in HM as [HX|(l0 & HE & HX)]; [exact HX| |discriminate|exact HG|exact HN|exact H].
      injection HE as <-. destruct HX as (v & HV2 & HS2). assert (T = L "alternative") by congruence. subst T. rewrite text_eqb_refl in EA. discriminate.
Qed.
End Loop.
Lemma back_internal : forall f cx mode dag conf next r, map fst (c_types cx) = names -> regular conf -> addInternal e f cx mode dag conf next = EOk r -> m_addInternal e badint f cx mode dag conf next <> [] -> somewhere e bad conf.
Proof.
  induction f as [|f IH]; intros cx mode dag conf next r HN HG H HM; [discriminate|]. cbn [addInternal m_addInternal] in *.
  eapply back_step; [| | | | |exact HN|exact HG|exact H|exact HM].
  - apply addp_of_fr.
  - intros c n v c' H1. cbn beta in *. apply ebind_ok in H1 as ([c1 o] & H1 & H2). destruct o as [[]|]; [discriminate|]. eapply addInternal_none; exact H1.
  - intros c n v r0 HNc HGv H1 HMv. cbn beta in *. apply ebind_ok in H1 as (x & H1 & _). eapply IH; eauto.
  - apply addInternal_fr.
  - intros. eapply IH; eauto.
Qed.
Lemma back_addParser cx dag conf r : map fst (c_types cx) = names -> regular conf -> addParser e cx dag conf = EOk r -> m_addParser e badint cx dag conf <> [] -> somewhere e bad conf.
Proof. intros HN HG H HM. unfold addParser, m_addParser in *. apply ebind_ok in H as (x & H & _). eapply back_internal; eauto. Qed.
End Back.
