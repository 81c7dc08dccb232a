(** * Prop_V1Ipt: C91 -- version 1 rules that end in an iptables field. *)
From Coq Require Import String.
From Verif Require Import Base BaseFacts Parsers FieldFacts SafetySpec Engine Pdag Samp BuiltSpec LoadSpec AnnotSpec TestEnv LoadTop2 LoadTop Prop_Load V1 V1Spec V1Ipt V1Facts V1Match V1LoadSpec V1FieldSpec V1Top Prop_V1.
Local Open Scope list_scope.

(** Every text has pairs, and only one sequence of them. *)
Theorem C91_pairs : forall u, exists kvs, ipt_pairs u kvs /\ forall kvs', ipt_pairs u kvs' -> kvs' = kvs.
Proof. intros u. destruct (ipt_pairs_total u) as (kvs & H). exists kvs. split; [exact H|]. intros kvs' H'. exact (ipt_pairs_unique _ _ _ H' H). Qed.
Print Assumptions C91_pairs.

Lemma ipt_inside msg runf p f u : vf_kind f = KIptables -> u <> [] -> msg = p ++ u -> exists vs, matches_inside msg runf (lit p ++ [VF f]) vs.
Proof.
  intros HK HU ->. destruct (ipt_pairs_total u) as (kvs & HP). exists [(f, JObj kvs)], (List.length (p ++ u)). split; [|lia]. apply takes_lit. split.
  - cbn [skipn]. rewrite firstn_app, firstn_all, Nat.sub_diag. cbn. apply app_nil_r.
  - rewrite Nat.add_0_l. assert (HL : List.length p < List.length (p ++ u)). { rewrite app_length. destruct u; [congruence|]. cbn [List.length]. lia. }
    apply tk_field with (o1 := List.length (p ++ u)); [congruence|exact HL| |constructor]. unfold field_takes. rewrite HK. change (vkind_eqb KIptables KIptables) with true. cbn iota.
    split; [exact HL|]. split; [reflexivity|]. exists kvs. split; [reflexivity|]. rewrite skipn_app, skipn_all, Nat.sub_diag. exact HP.
Qed.
(** A rule of the rulebase that ends in iptables recognises every message that begins with its
    text and has at least one byte more. *)
Theorem C91_recognised : forall e fuel q lc0 file rs al al0 lc, unescape e [] = [] ->
  v1_file e fuel (c_prefix (l_ctx lc0)) file rs al -> no_v2 lc0 -> has_annots (l_ctx lc0) al0 -> clean_annots al0 ->
  (forall r, In r rs -> tame (fst r)) -> l_loadFile e q fuel lc0 file = EOk (lc, true) ->
  forall p f tg, In (lit p ++ [VF f], tg) rs -> vf_kind f = KIptables ->
  forall nf u js0 ok out lc', u <> [] -> ~ In NUL (p ++ u) -> l_normalize e nf lc (p ++ u) js0 = EOk (ok, out, lc') -> ok = true.
Proof.
  intros e fuel q lc0 file rs al al0 lc Hue HF HV HA HC HT HL p f tg HI HK nf u js0 ok out lc' HU HN H.
  destruct (ipt_inside (p ++ u) (run_field e nf (vctx_of lc) (p ++ u)) p f u HK HU eq_refl) as (vs & HM).
  exact (C69_matching_rule_found e fuel q lc0 file rs al al0 lc Hue HF HV HA HC HT HL nf (p ++ u) js0 ok out lc' HN H _ _ _ HI HM).
Qed.
Print Assumptions C91_recognised.

Lemma lit_end p f o o' vs msg runf lim : vf_kind f = KIptables -> takes msg runf lim (lit p ++ [VF f]) o o' vs ->
  firstn (List.length p) (skipn o msg) = p /\ o + List.length p < List.length msg /\ o' = List.length msg /\ exists kvs, vs = [(f, JObj kvs)] /\ ipt_pairs (skipn (o + List.length p) msg) kvs.
Proof.
  intros HK H. apply takes_lit in H as (H1 & H). split; [exact H1|]. inversion H as [| |g its1 x o1 v o2 vs' NR HL HF HT EA EB EC ED|g x KR HL EA EB EC ED]; subst; [|congruence].
  unfold field_takes in HF. rewrite HK in HF. change (vkind_eqb KIptables KIptables) with true in HF. cbn iota in HF. destruct HF as (A & -> & kvs & -> & HP). inversion HT; subst. split; [exact A|]. split; [reflexivity|]. exists kvs. auto.
Qed.
(** With this rule alone: exactly these messages are recognised, and what the rule adds to the
    event are the pairs, of pairs with the same name the last one - and nothing under the
    field's own name. *)
Theorem C91_event : forall e fuel q lc0 file p f tags al al0 lc, unescape e [] = [] -> vf_kind f = KIptables ->
  v1_file e fuel (c_prefix (l_ctx lc0)) file [(lit p ++ [VF f], tag_list tags)] al -> no_v2 lc0 -> has_annots (l_ctx lc0) al0 -> clean_annots al0 ->
  l_loadFile e q fuel lc0 file = EOk (lc, true) ->
  forall nf msg js0 ok out lc', ~ In NUL msg -> l_normalize e nf lc msg js0 = EOk (ok, out, lc') ->
  (ok = true <-> exists u, u <> [] /\ msg = p ++ u) /\
  forall u kvs, ok = true -> msg = p ++ u -> ipt_pairs u kvs -> v1_event js0 [(f, JObj kvs)] tags (al0 ++ al) out.
Proof.
  intros e fuel q lc0 file p f tags al al0 lc Hue HK HF HV HA HC HL nf msg js0 ok out lc' HN H.
  assert (HT : forall r, In r [(lit p ++ [VF f], tag_list tags)] -> tame (fst r)). { intros r [<-|[]]. cbn [fst]. apply tame_lit. cbn. auto. }
  assert (HS : ok = true -> exists u kvs, u <> [] /\ msg = p ++ u /\ ipt_pairs u kvs /\ v1_event js0 [(f, JObj kvs)] tags (al0 ++ al) out).
  { intros ->. destruct (C68_success_reports_a_rule e fuel q lc0 file _ al al0 lc Hue HF HV HA HC HT HL nf msg js0 out lc' H) as (its & tags' & vs & HE & (o' & TK & HO) & EV).
    destruct HE as (b & a & E & _). destruct b as [|b0 b]; [|destruct b; discriminate E]. injection E as <- HTG _.
    apply lit_end in TK as (T1 & T2 & -> & kvs & -> & HP); [|exact HK]. cbn [skipn Nat.add] in *. exists (skipn (List.length p) msg), kvs. split; [|split; [|split; [exact HP|]]].
    - intros X. apply (f_equal (@List.length _)) in X. rewrite skipn_length in X. cbn in X. lia.
    - rewrite <- T1 at 1. symmetry. apply firstn_skipn.
    - assert (tags' = tags) as <-; [|exact EV]. revert HTG. clear. unfold tag_list. destruct tags as [|a l], tags' as [|a' l']; intros E; try discriminate; [reflexivity|]. injection E as -> E. f_equal.
      revert l' E. induction l as [|x l IH]; intros [|y l'] E; try discriminate; [reflexivity|]. injection E as -> E. f_equal. apply IH. exact E. }
  split; [split|].
  - intros HOk. destruct (HS HOk) as (u & kvs & A & B & _). eauto.
  - intros (u & A & ->). eapply (C91_recognised e fuel q lc0 file _ al al0 lc Hue HF HV HA HC HT HL p f _ (or_introl eq_refl) HK); eauto.
  - intros u kvs HOk EM HP. destruct (HS HOk) as (u' & kvs' & A & B & C & D). rewrite EM in B. apply app_inv_head in B. subst u'. rewrite (ipt_pairs_unique _ _ _ HP C). exact D.
Qed.
Print Assumptions C91_event.

(** ** A case *)
Definition items91 : list item := [Line (L "rule=fw:kernel: %-:iptables%")].
Definition text91 : text := write items91.
Definition f91 : vfield := fld "-" KIptables None.
Lemma file91 : v1_file (env_v text91) 10 None (L "f") [(lit (L "kernel: ") ++ [VF f91], tag_list [L "fw"])] [].
Proof.
  exists text91, 0%N, (numbered 0 items91). split; [reflexivity|]. split; [discriminate|]. split; [intros u; discriminate|].
  split; [apply numbered_file; vm_compute; reflexivity|]. split.
  - assert (H : forallb (fun l => N.ltb (N.of_nat (List.length (fst l))) (10 * 1024)) (numbered 0 items91) = true) by (vm_compute; reflexivity).
    apply Forall_forall. intros x Hx. rewrite forallb_forall in H. apply N.ltb_lt. apply H. exact Hx.
  - apply (vr_rule (env_v text91) 10 None [L "fw"] (L "kernel: %-:iptables%") (lit (L "kernel: ") ++ [VF f91])); [|discriminate| |constructor].
    + repeat constructor; try discriminate; intros [X|[X|[]]]; discriminate.
    + change (in_force None ++ L "kernel: %-:iptables%") with (doubled (L "kernel: ") ++ "%"%char :: L "-:iptables%" ++ doubled []).
      apply text_field_v; [reflexivity|reflexivity| |apply text_lit_v; [reflexivity|reflexivity|reflexivity]].
      apply (ft_plain _ [] (L "-") "iptables" [] KIptables); [apply Forall_nil|apply Forall_nil|discriminate|intros [X|[]]; discriminate|reflexivity|discriminate|in_types].
Qed.
Example C91_ex : run_v text91 "kernel: IN=eth0  OUT= A=b=c SYN IN=eth1" =
  EOk (true, [(L "IN", JStr (L "eth1")); (L "OUT", JStr []); (L "A", JStr (L "b=c")); (L "SYN", JStr (L "[*PRESENT*]")); (L "event.tags", JArr [JStr (L "fw")])]) /\
  run_v text91 "kernel: " = EOk (false, [(L "originalmsg", JStr (L "kernel: ")); (L "unparsed-data", JStr [])]).
Proof. split; vm_compute; reflexivity. Qed.
(** Blanks at the end of the message bring a member with an empty name. *)
Theorem C91_trailing_blank_refuted : exists o, run_v text91 "kernel: A=1 " = EOk (true, o) /\ obj_get o [] = Some (JStr (L "[*PRESENT*]")).
Proof. eexists. split; [vm_compute; reflexivity|reflexivity]. Qed.
(** The next rule is never tried: an iptables field in a rulebase takes whatever gets to it,
    also when another rule describes the message better. *)
Theorem C91_better_rule_refuted :
  run_v (lines ["rule=:a %x:iptables%"; "rule=:a b"]%string) "a b" = EOk (true, [(L "b", JStr (L "[*PRESENT*]"))]) /\
  run_v (lines ["rule=:a b"]%string) "a b" = EOk (true, []).
Proof. split; vm_compute; reflexivity. Qed.
