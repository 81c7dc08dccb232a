(** * NormSafe: normalizing only follows references of the graph. *)
From Verif Require Import Base Time Parsers Engine GraphSpec SafetySpec ParserSafe ParserSafe2 BaseFacts LoadFacts.
From Coq Require Import ZifyBool ZifyNat ZifyN.

Lemma motif_not_uaf e m want offs t : run_motif e m want offs t <> Ub UseAfterFree.
Proof. intros H. apply motif_ub in H. inversion H. Qed.

Section NormSafe.
Variables (e : env) (cx : ctx) (msg : text).
Definition alive (i : nat) : Prop := exists n, live (c_nodes cx) i n.
Hypothesis Hedge : forall i n p t, live (c_nodes cx) i n -> In p (n_parsers n) -> In t (targets p) -> alive t.
Hypothesis Hown : forall t, In t (owners cx) -> alive t.

Definition end_alive (s : rst) : Prop := match r_end s with Some i => alive i | None => True end.
Definition srec (rec : nat -> nat -> bool -> rst -> er (bool * rst)) : Prop :=
  forall nd offs partial s, alive nd -> end_alive s -> upost (fun r => end_alive (snd r)) (rec nd offs partial s).

Lemma repeat_safe rec pn wn permit : srec rec -> alive pn -> alive wn -> forall f strt lkg arr s,
  upost (fun _ => True) (repeat_loop rec f pn wn permit strt lkg arr s).
Proof.
  intros HR Hp Hw. induction f as [|f IH]; intros strt lkg arr s; cbn [repeat_loop]; [cbn; discriminate|].
  eapply upost_bind; [apply HR; [exact Hp|exact I]|]. intros [ok s1] _. destruct ok; cbn [negb].
  - eapply upost_bind; [apply HR; [exact Hw|exact I]|]. intros [ok2 s2] _. destruct ok2; [apply IH|exact I].
  - destruct permit; exact I.
Qed.

Lemma try_safe rec rf p offs s : srec rec -> (forall t, In t (targets p) -> alive t) -> end_alive s ->
  upost (fun r => end_alive (snd r)) (tryParser e cx msg rec rf p offs s).
Proof.
  intros HR Ht HE. unfold tryParser. unfold targets in Ht. destruct (p_kind p) as [m|pn wn permit|ti].
  - destruct (Nat.ltb _ _); [cbn; discriminate|]. destruct (run_motif e m _ offs (skipn offs msg)) as [[n v]| |u] eqn:E; [exact HE|exact HE|].
    cbn. intros ->. exact (motif_not_uaf _ _ _ _ _ E).
  - eapply upost_bind; [apply repeat_safe; [exact HR|apply Ht; cbn; auto|apply Ht; cbn; auto]|]. intros [o s1] _. exact HE.
  - destruct (nth_error (c_types cx) ti) as [[nm tn]|] eqn:E; [|cbn; discriminate].
    eapply upost_bind; [apply HR; [|exact I]|].
    + apply Hown. right. apply nth_error_In in E. apply (in_map snd) in E. exact E.
    + intros [ok s1] _. exact HE.
Qed.

Lemma loop_safe rec rf nd offs partial : srec rec -> forall ps lpt s, (forall p t, In p ps -> In t (targets p) -> alive t) -> end_alive s ->
  upost (fun r => end_alive (snd r)) (parser_loop e cx msg rec rf nd ps offs partial lpt s).
Proof.
  intros HR. induction ps as [|p ps IH]; intros lpt s Hp HE; cbn [parser_loop]; [exact HE|].
  eapply upost_bind; [apply try_safe; [exact HR|intros t; apply Hp; left; reflexivity|exact HE]|]. intros [[[pos v]|] s1] HE1; cbn [snd] in HE1.
  - eapply upost_bind; [apply HR; [apply (Hp p); [left; reflexivity|left; reflexivity]|exact HE1]|]. intros [ok s2] HE2. cbn [snd] in HE2. destruct ok.
    + eapply (upost_bind (fun _ => True)).
      * unfold fixJSON. destruct (p_name p); [|exact I]. destruct (text_eqb _ _).
        -- destruct v as [| | | | | |[|x l]]; try exact I; destruct (r_js s2); try exact I; cbn; discriminate.
        -- destruct (r_js s2); [exact I|cbn; discriminate].
      * intros js _. cbn [upost snd]. destruct (opt_rule (c_opts cx)); exact HE2.
    + apply IH; [intros q t Hq; apply Hp; right; exact Hq|]. exact HE2.
  - apply IH; [intros q t Hq; apply Hp; right; exact Hq|]. exact HE1.
Qed.

Lemma normalizeRec_safe : forall fuel, srec (normalizeRec e cx msg fuel).
Proof.
  induction fuel as [|f IH]; intros nd offs partial s [n Hn] HE; cbn [normalizeRec]; [cbn; discriminate|].
  unfold norm_step, get_node. unfold live in Hn. rewrite Hn. cbn [ebind].
  eapply upost_bind; [apply loop_safe; [exact IH|intros p t Hp Ht; exact (Hedge _ _ _ _ Hn Hp Ht)|exact HE]|].
  intros [ok s1] HE1. cbn [snd] in HE1. destruct (_ && _)%bool; [|exact HE1]. exists n. exact Hn.
Qed.

Lemma annot_ops_safe : forall ops o, upost (fun _ => True) (annot_ops ops o).
Proof.
  induction ops as [|op ops IH]; intros o; cbn [annot_ops]; [exact I|]. eapply (upost_bind (fun _ => True)); [|intros; apply IH].
  destruct op as [[n|] [v|]|]; cbn; try exact I; discriminate.
Qed.
Lemma annotate_tags_safe as_ : forall ts o, upost (fun _ => True) (annotate_tags as_ ts o).
Proof.
  induction ts as [|t ts IH]; intros o; cbn [annotate_tags]; [exact I|]. eapply (upost_bind (fun _ => True)); [|intros; apply IH].
  unfold annotateEventWithTag. destruct (findAnnot as_ t); [apply annot_ops_safe|exact I].
Qed.
Lemma metadata_safe n r o : upost (fun _ => True) (add_metadata cx n r o).
Proof.
  unfold add_metadata. eapply (upost_bind (fun _ => True)).
  - destruct (opt_rule _); [|exact I]. destruct (filter _ _); cbn; [discriminate|exact I].
  - intros m1 _. eapply (upost_bind (fun _ => True)).
    + destruct (opt_loc _); [|exact I]. destruct (n_file n); cbn; [exact I|discriminate].
    + intros m2 _. destruct (m1 ++ m2); exact I.
Qed.

Lemma normalize_safe fuel js0 : upost (fun _ => True) (normalize fuel e cx msg js0).
Proof.
  unfold normalize. eapply upost_bind; [apply normalizeRec_safe; [apply Hown; left; reflexivity|exact I]|].
  intros [ok s] HE. cbn [snd] in HE. destruct ok.
  - unfold end_alive in HE. destruct (r_end s) as [en|]; [|cbn; discriminate]. destruct HE as [n Hn]. unfold live in Hn. unfold get_node. rewrite Hn. cbn [ebind].
    eapply (upost_bind (fun _ => True)).
    + destruct (n_tags n); [|exact I]. unfold annotate. destruct (c_annots cx); [exact I|]. apply annotate_tags_safe.
    + intros o _. eapply (upost_bind (fun _ => True)); [apply metadata_safe|]. intros; exact I.
  - destruct (Nat.ltb _ _); cbn; [discriminate|exact I].
Qed.
End NormSafe.
