(** * EngineFault: normalizing misbehaves in the listed ways only. *)
From Verif Require Import Base Time Parsers Engine GraphSpec SafetySpec ParserSafe ParserSafe2 BaseFacts EngineSpec EngineWf EngineFacts EngineFacts2 EngineTotal FaultSpec.
From Coq Require Import ZifyBool ZifyNat ZifyN.

Lemma cee_starts e offs want t r : parseCEE e offs want t = Ok r -> firstn 5 t = L "@cee:".
Proof.
  unfold parseCEE. cbv zeta. destruct (Nat.ltb_spec (List.length t) 7) as [HL|HL]; cbn [negb]; [discriminate|]. intros H.
  destruct t as [|c0 [|c1 [|c2 [|c3 [|c4 t]]]]]; try (cbn [List.length] in HL; lia).
  destruct (rdall _ _ _) as [[]|k|u] eqn:E; try discriminate. clear H. cbn [rdall] in E. unfold rd in E. cbn [nth_error bind] in E.
  destruct (ceq "@" c0) eqn:E0; [|discriminate]. destruct (ceq "c" c1) eqn:E1; [|discriminate]. destruct (ceq "e" c2) eqn:E2; [|discriminate].
  destruct (ceq "e" c3) eqn:E3; [|discriminate]. destruct (ceq ":" c4) eqn:E4; [|discriminate].
  apply ceq_true in E0, E1, E2, E3, E4. subst. reflexivity.
Qed.

Section Fault.
Variables (e : env) (cx : ctx) (msg : text) (lab : nat -> bool).
Hypothesis Htok : tok_ok e.
Hypothesis Hroot : valid cx (c_root cx).
Hypothesis Hkids : forall i n p, node_at cx i n -> In p (n_parsers n) -> valid cx (p_child p) /\ lab (p_child p) = lab i /\
  match p_kind p with KSimple _ => True | KRepeat pn wn _ => valid cx pn /\ valid cx wn
  | KCustom ti => exists nm tn, nth_error (c_types cx) ti = Some (nm, tn) /\ valid cx tn end.
Hypothesis Hfile : lab (c_root cx) = true.
Hypothesis Hterm : forall i n, node_at cx i n -> lab i = true -> n_term n = true -> n_file n <> None.
Let N := List.length msg.

Definition orF {A} (r : er A) (P : A -> Prop) : Prop := match r with EOk a => P a | EUb u => fault cx e msg u end.
Lemma orF_bind {A B} (x : er A) (f : A -> er B) P Q : orF x P -> (forall a, P a -> orF (f a) Q) -> orF (ebind x f) Q.
Proof. destruct x; cbn; auto. Qed.
Lemma orF_mono {A} (x : er A) (P Q : A -> Prop) : orF x P -> (forall a, P a -> Q a) -> orF x Q.
Proof. destruct x; cbn; auto. Qed.

(** inside the message, or a cee-syslog field went wrong *)
Definition inside (k : nat) : Prop := k <= N \/ cee_inside cx msg.
Lemma inside_max a b : inside a -> inside b -> inside (Nat.max a b).
Proof. unfold inside. intros [H|H] [K|K]; auto. left. lia. Qed.

(** without an object to store into only below the separator of a repeat *)
Definition sep_of (nd : nat) : Prop := exists rp pn wn permit, in_graph cx rp /\ p_kind rp = KRepeat pn wn permit /\ reach_node cx wn nd.

Lemma reach_child a i n p : reach_node cx a i -> node_at cx i n -> In p (n_parsers n) -> reach_node cx a (p_child p).
Proof. intros H Hn Hp. induction H; [eapply rn_step; eauto; apply rn_refl|]. eapply rn_step; eauto. Qed.
Lemma sep_child i n p : sep_of i -> node_at cx i n -> In p (n_parsers n) -> sep_of (p_child p).
Proof. intros (rp & pn & wn & pm & H1 & H2 & H3) Hn Hp. exists rp, pn, wn, pm. split; auto. split; auto. eapply reach_child; eauto. Qed.

Definition fgood (nd : nat) (s : rst) (r : bool * rst) : Prop :=
  inside (r_pt (snd r)) /\ (r_js s <> None -> r_js (snd r) <> None) /\
  (fst r = true -> exists en n, r_end (snd r) = Some en /\ node_at cx en n /\ n_term n = true /\ lab en = lab nd).
Definition frec (rec : nat -> nat -> bool -> rst -> er (bool * rst)) : Prop :=
  forall nd offs partial s, valid cx nd -> inside offs -> inside (r_pt s) -> (r_js s = None -> sep_of nd) -> orF (rec nd offs partial s) (fgood nd s).

Lemma repeat_fault rec rp pn wn permit : frec rec -> in_graph cx rp -> p_kind rp = KRepeat pn wn permit -> valid cx pn -> valid cx wn ->
  forall f strt lkg arr s, inside strt -> inside lkg -> inside (r_pt s) ->
  orF (repeat_loop rec f pn wn permit strt lkg arr s) (fun r => match fst r with Some (pos, _) => inside pos | None => True end).
Proof.
  intros HR Hin Ek Hp Hw. induction f as [|f IH]; intros strt lkg arr s Hs Hk Hpt; cbn [repeat_loop]; [apply ft_endless|].
  eapply orF_bind; [apply HR; auto; cbn; discriminate|]. intros [ok s1] (H1 & H2 & H3). cbn [fst snd] in *. destruct ok; cbn [negb].
  - eapply orF_bind; [apply HR; auto; [cbn; left; lia|]|].
    { intros _. exists rp, pn, wn, permit. split; auto. split; auto. apply rn_refl. }
    intros [ok2 s2] (K1 & K2 & K3). cbn [fst snd] in *. destruct ok2; [apply IH; auto|exact H1].
  - destruct permit; cbn; auto.
Qed.

Lemma try_fault rec rf p i n offs s : frec rec -> node_at cx i n -> In p (n_parsers n) -> inside offs -> inside (r_pt s) ->
  orF (tryParser e cx msg rec rf p offs s) (fun '(o, s1) => r_pt s1 = r_pt s /\ r_js s1 = r_js s /\ match o with Some (pos, v) => inside pos | None => True end).
Proof.
  intros HR Hn Hp Ho Hpt. assert (Hin : in_graph cx p) by (exists i, n; auto). destruct (Hkids _ _ _ Hn Hp) as (_ & _ & HK). unfold tryParser.
  destruct (p_kind p) as [m|pn wn permit|ti] eqn:Ek.
  - destruct (Nat.ltb_spec (List.length msg) offs) as [HL|HL].
    { cbn. destruct Ho as [Ho|Ho]; [unfold N in Ho; lia|]. apply ft_cee_offset. exact Ho. }
    destruct (run_motif e m _ offs (skipn offs msg)) as [[k v]|k|u] eqn:Er; cbn [orF]; [|auto|].
    + split; auto. split; auto. assert (Hc : m = MCee \/ m <> MCee) by (destruct m; auto; right; discriminate). destruct Hc as [->|Hc].
      * cbn [run_motif] in Er. pose proof (cee_starts _ _ _ _ _ Er) as HS. pose proof (motif_safe e MCee (match p_name p with Some _ => true | None => false end) offs (skipn offs msg)) as HP. cbn [run_motif] in HP.
        rewrite Er in HP. cbn in HP. rewrite skipn_length in HP. destruct (Nat.eq_dec offs 0) as [->|H0]; [left; unfold N; lia|].
        right. exists p, offs. split; auto. split; auto. split; [lia|exact HS].
      * apply motif_len in Er; auto. rewrite skipn_length in Er. left. unfold N. lia.
    + apply ft_field. apply motif_ub in Er. exists p, m, offs. auto.
  - destruct HK as [Hv Hw]. eapply orF_bind; [apply (repeat_fault rec p pn wn permit HR Hin Ek Hv Hw rf offs offs None s); auto|].
    intros [o s1] Hpos. cbn [orF fst] in *. split; [reflexivity|]. split; [reflexivity|]. destruct o as [[pos v]|]; auto.
  - destruct HK as (nm & tn & -> & Hv). eapply orF_bind; [apply HR; auto; cbn; discriminate|].
    intros [ok s1] (H1 & _ & _). cbn [orF fst snd] in *. split; [reflexivity|]. split; [reflexivity|]. destruct ok; auto.
Qed.

Lemma loop_fault rec rf nd n partial offs : frec rec -> node_at cx nd n -> inside offs ->
  forall ps lpt s, incl ps (n_parsers n) -> inside (r_pt s) -> inside lpt -> (r_js s = None -> sep_of nd) ->
  orF (parser_loop e cx msg rec rf nd ps offs partial lpt s) (fgood nd s).
Proof.
  intros HR Hn Ho. induction ps as [|p ps IH]; intros lpt s Hi Hpt Hlp Hs; cbn [parser_loop].
  - cbn. split; auto. split; auto. discriminate.
  - assert (Hp : In p (n_parsers n)) by (apply Hi; left; reflexivity). assert (Hi' : incl ps (n_parsers n)) by (intros x Hx; apply Hi; right; exact Hx).
    destruct (Hkids _ _ _ Hn Hp) as (Hv & Hl & _).
    eapply orF_bind; [apply (try_fault rec rf p nd n offs s HR Hn Hp Ho Hpt)|]. intros [o s1] (Hp1 & Hj1 & Hpos). destruct o as [[pos v]|].
    + eapply orF_bind; [apply HR; auto; [congruence|]|].
      { rewrite Hj1. intros K. eapply sep_child; eauto. }
      intros [ok s2] (H1 & H2 & H3). cbn [fst snd] in *. rewrite Hj1 in H2. destruct ok.
      * assert (HF : orF (fixJSON p v (r_js s2)) (fun js => r_js s <> None -> js <> None)).
        { assert (Hnone : r_js s2 = None -> p_name p <> None -> fault cx e msg NullDeref).
          { intros K Kn. destruct (r_js s) as [o|] eqn:Ej; [exfalso; apply H2; [congruence|exact K]|].
            destruct (Hs eq_refl) as (rp & pn & wn & pm & G1 & G2 & G3). apply ft_separator. exists rp, pn, wn, pm, nd, n, p. auto 10. }
          unfold fixJSON. destruct (p_name p) as [nm|]; [|exact H2].
          assert (Hn' : r_js s2 = None -> fault cx e msg NullDeref) by (intros K; apply Hnone; [exact K|discriminate]).
          destruct (r_js s2) as [o|]; destruct (text_eqb nm (L ".")); [destruct v as [| | | | | |[|? ?]]| |destruct v as [| | | | | |[|? ?]]|]; cbn; try discriminate; auto. }
        eapply orF_bind; [exact HF|]. intros js Hjs. destruct (H3 eq_refl) as (en & m & E1 & E2 & E3 & E4). cbn [orF]. unfold fgood. cbn [fst snd].
        destruct (opt_rule (c_opts cx)); cbn; (split; [apply inside_max; auto|split; [exact Hjs|intros _; exists en, m; rewrite <- Hl; auto]]).
      * eapply orF_mono; [apply IH; auto|].
        -- cbn. apply inside_max; auto.
        -- cbn. intros K. apply Hs. destruct (r_js s); auto. exfalso. apply H2; [discriminate|exact K].
        -- intros [ok' s'] (G1 & G2 & G3). unfold fgood. cbn [fst snd r_js set_pt set_log] in *. auto.
    + eapply orF_mono; [apply IH; auto|].
      * cbn. rewrite Hp1. apply inside_max; auto.
      * cbn. rewrite Hj1. auto.
      * intros [ok' s'] (G1 & G2 & G3). unfold fgood. cbn [fst snd r_js set_pt set_log] in *. rewrite Hj1 in G2. auto.
Qed.

Lemma normalizeRec_fault : forall fuel, frec (normalizeRec e cx msg fuel).
Proof.
  induction fuel as [|f IH]; intros nd offs partial s [n Hn] Ho Hpt Hs; cbn [normalizeRec]; [apply ft_endless|].
  unfold norm_step, get_node. unfold node_at in Hn. rewrite Hn. cbn [ebind].
  eapply orF_bind; [apply (loop_fault _ f nd n partial offs IH Hn Ho); auto using incl_refl|].
  intros [ok s1] (H1 & H2 & H3). cbn [fst snd r_js set_log] in *. destruct (n_term n) eqn:Et; cbn [andb].
  - destruct (_ || _)%bool; cbn [orF]; unfold fgood; cbn [fst snd]; (split; [exact H1|]); (split; [exact H2|]); [|exact H3]. intros _. exists nd, n. auto.
  - cbn [orF]. unfold fgood. cbn [fst snd]. auto.
Qed.

Lemma annotate_fault as_ tags o : incl as_ (c_annots cx) -> orF (annotate as_ tags o) (fun _ => True).
Proof.
  intros Hi. unfold annotate. destruct as_ as [|a as_]; [exact I|]. remember (a :: as_) as l. clear Heql a as_.
  generalize (rev (tag_texts tags)). intros ts. revert o. induction ts as [|t ts IH]; intros o; cbn [annotate_tags]; [exact I|].
  eapply (orF_bind _ _ (fun _ => True)); [|intros; apply IH]. unfold annotateEventWithTag. destruct (findAnnot l t) as [ops|] eqn:E; [|exact I].
  apply findAnnot_in in E. apply Hi in E. assert (HA : forall ops', incl ops' ops -> forall o, orF (annot_ops ops' o) (fun _ => True)).
  { induction ops' as [|op ops' IH2]; intros Ho o'; cbn [annot_ops]; [exact I|].
    eapply (orF_bind _ _ (fun _ => True)); [|intros; apply IH2; intros x Hx; apply Ho; right; exact Hx].
    assert (Hop : In op ops) by (apply Ho; left; reflexivity).
    destruct op as [[nm|] [v|]|]; cbn [annot_op orF]; try exact I; apply ft_annotation; eexists t, ops, _, _; (split; [exact E|split; [exact Hop|auto]]). }
  apply HA, incl_refl.
Qed.

Lemma normalize_fault fuel js0 : orF (normalize fuel e cx msg js0) (fun _ => True).
Proof.
  unfold normalize. fold (st0 js0).
  assert (HG : orF (normalizeRec e cx msg fuel (c_root cx) 0 false (st0 js0)) (fgood (c_root cx) (st0 js0))).
  { apply normalizeRec_fault; auto; [left; lia|left; cbn; lia|cbn; discriminate]. }
  destruct (normalizeRec e cx msg fuel (c_root cx) 0 false (st0 js0)) as [[ok s]|u] eqn:Hrun; [|exact HG].
  destruct HG as (Hpt & Hj & He). cbn [fst snd] in *. cbn [ebind]. destruct ok; cbv zeta.
  - destruct (He eq_refl) as (en & n & -> & Hn & Ht & Hl). unfold get_node at 1. rewrite Hn. cbn [ebind].
    eapply (orF_bind _ _ (fun _ => True)).
    { destruct (n_tags n) as [tags|]; [|exact I]. apply annotate_fault, incl_refl. }
    intros o2 _. generalize (if opt_orig (c_opts cx) then obj_add o2 (L "originalmsg") (JStr msg) else o2). intros o3.
    eapply (orF_bind _ _ (fun _ => True)); [|intros; exact I]. unfold add_metadata.
    eapply (orF_bind _ _ (fun _ => True)).
    { destruct (opt_rule (c_opts cx)) eqn:Er; [|exact I]. destruct (filter _ (r_rule s)) as [|c l] eqn:Ef; [|exact I].
      cbn [orF]. apply ft_mockup; auto. destruct fuel as [|fuel]; [discriminate|]. cbn [normalizeRec] in Hrun. unfold norm_step in Hrun.
      apply ebind_ok in Hrun as (n0 & Hn0 & Hrun). apply ebind_ok in Hrun as ([ok s1] & Hlp & Hrun). apply get_node_at in Hn0.
      destruct (n_term n0) eqn:Et0; [left; exists n0; auto|]. cbn [andb] in Hrun. injection Hrun as -> ->. right.
      apply loop_rule in Hlp as (p & r & Hp & Hrr); [|exact Er]. 
      assert (HN : forall c, In c (mockup_of p) -> c = NUL).
      { intros c Hc. destruct (ascii_dec c NUL) as [|Hne]; auto. exfalso. assert (HI : In c (filter (fun c => negb (ceq c NUL)) (r_rule s))).
      { apply filter_In. split; [rewrite Hrr; apply in_or_app; auto|]. unfold ceq. destruct (Ascii.eqb_spec c NUL); [congruence|reflexivity]. }
      rewrite Ef in HI. exact HI. }
      assert (Hpc : ~ In "%"%char (mockup_of p)) by (intros K; apply HN in K; discriminate).
      assert (Hin : in_graph cx p) by (exists (c_root cx), n0; auto). unfold mockup_of in HN, Hpc.
      destruct (p_kind p) as [m|? ? ?|?] eqn:Ek; try (exfalso; apply Hpc; left; reflexivity).
      destruct m; try (exfalso; apply Hpc; left; reflexivity). exists p, lit. split; auto. split; auto. intros c Hc. apply HN. apply in_rev in Hc. exact Hc. }
    intros m1 _. eapply (orF_bind _ _ (fun _ => True)).
    { destruct (opt_loc (c_opts cx)); [|exact I]. pose proof (Hterm _ _ Hn ltac:(congruence) Ht) as HF. destruct (n_file n); [exact I|congruence]. }
    intros m2 _. destruct (m1 ++ m2); exact I.
  - destruct (Nat.ltb_spec (List.length msg) (r_pt s)) as [HL|HL]; [|exact I]. cbn. destruct Hpt as [Hpt|Hpt]; [unfold N in Hpt; lia|]. apply ft_cee_read. exact Hpt.
Qed.
End Fault.
