(** * ConfFacts: where the fields of a graph come from. *)
From Verif Require Import Base Parsers Engine Pdag Samp GraphSpec RuleSpec BuiltSpec BaseFacts EngineFacts2 HeapFacts BuildFacts BuildFacts2 TreeFacts TreeFacts2.
From Coq Require Import ZifyBool ZifyNat ZifyN.

Definition has_conf (h : list (option node)) (c : json) : Prop := exists i n p, live h i n /\ In p (n_parsers n) /\ p_conf p = c.
Definition confs_from (cx cx' : ctx) (cs : list json) : Prop := forall c, has_conf (c_nodes cx') c -> In c cs \/ has_conf (c_nodes cx) c.
Section C.
Variable e : env.
Lemma chain_confs cx d cs en cx' : chain e cx d cs en cx' -> confs_from cx cx' cs.
Proof.
  induction 1 as [cx d|cx d conf cs cx1 c en cx2 HR HC IH]; [intros c Hc; auto|]. intros x Hx. apply IH in Hx as [Hx|Hx]; [left; right; exact Hx|].
  destruct HR as [[-> _]|HM]; [auto|]. apply made_live in HM as (n & p & Hd & Hp & Hc & Ec & HL). destruct Hx as (i & m & q & Hi & Hq & Eq).
  apply HL in Hi as [[-> ->]|[[_ Hi]|[-> ->]]].
  - cbn [set_parsers n_parsers] in Hq. apply in_app_or in Hq as [Hq|[<-|[]]]; [right; exists d, n, q; auto|left; left; congruence].
  - right. exists i, m, q. auto.
  - destruct Hq.
Qed.
Lemma rule_added_confs cx rule cs r tags K cx' : tidy e cx -> In r (owners cx) -> K < 255 -> small cx K -> rule_confs e rule cs -> Forall (nflat e cx) cs ->
  addSampToTree e cx rule r tags = EOk cx' -> confs_from cx cx' cs.
Proof.
  intros T Hr HK HS HC HF HE. destruct (t_dang _ _ T r) as [n Hn]; [apply in_or_app; auto|].
  destruct (chain_exists e cs cx r n K T Hn HK HS HF) as (en & cx1 & E & HCh & HS1). pose proof (chain_confs _ _ _ _ _ HCh) as HX.
  unfold addSampToTree in HE. rewrite (add_rule_confs e rule cs HC) in HE by lia. rewrite E in HE. cbn [ebind] in HE. destruct (get_node _ _) as [m|]; [|discriminate]. cbn [ebind] in HE. injection HE as <-.
  intros c (i & k & p & Hi & Hp & Ec). apply HX. rewrite nodes_set in Hi. apply live_upd in Hi as [[_ Hi]|[_ (n0 & Hi & ->)]]; [exists i, k, p; auto|exists en, n0, p; auto].
Qed.
Lemma rule_rejected_confs cx rule cs r tags K cx' : tidy e cx -> In r (owners cx) -> K < 255 -> small cx K -> broken_rule e (c_types cx) rule cs -> Forall (nflat e cx) cs ->
  addSampToTree e cx rule r tags = EOk cx' -> confs_from cx cx' cs.
Proof.
  intros T Hr HK HS HB HF HE. destruct (t_dang _ _ T r) as [n Hn]; [apply in_or_app; auto|].
  destruct (add_broken e (c_types cx) rule cs HB (S (List.length rule)) cx r n K eq_refl) as (en & cx2 & E & E2 & HC); auto; [lia|].
  unfold addSampToTree in HE. rewrite E in HE. cbn in HE. injection HE as <-. eapply chain_confs; eauto.
Qed.
End C.
