(** * OneFacts: the normalizer on graphs without branches. *)
From Verif Require Import Base Time Parsers Engine EngineSpec EngineSpec2 GraphSpec RuleSpec OneSpec BaseFacts FieldFacts EngineFacts EngineFacts2 EngineFacts3 EngineGen RuleFacts OptSem.
From Coq Require Import ZifyBool ZifyNat ZifyN.

Definition C1 (c : ascii) : rfield * option text := (RPlain (MLiteral [c]), None).
(** literal text character by character *)
Definition chop (f : rfield * option text) : rfields :=
  match f with
  | (RPlain (MLiteral t), None) => map C1 t
  | _ => [f]
  end.
Definition norm (fs : rfields) : rfields := flat_map chop fs.
Lemma chop_cases f nm : (exists t, f = RPlain (MLiteral t) /\ nm = None /\ chop (f, nm) = map C1 t) \/ chop (f, nm) = [(f, nm)].
Proof. destruct f as [[]| |]; auto. destruct nm; auto. left. eauto. Qed.

Lemma stored_none o v vs : stored o ((None, v) :: vs) = stored o vs. Proof. reflexivity. Qed.

Section Meaning.
Variables (e : env) (types : list (text * rfields)) (msg : text).
Hypothesis Hnul : ~ In NUL msg.
Notation field_at := (field_at e types msg).
Notation fields_at := (fields_at e types msg).
Notation items_at := (items_at e types msg).

(** the outcome at a position is unique *)
Definition one_rule_types : Prop := forall T fs fs', In (T, fs) types -> In (T, fs') types -> fs = fs'.
Lemma at_fun : one_rule_types ->
  (forall f w from r, field_at f w from r -> forall r', field_at f w from r' -> r = r') /\
  (forall fs from r, fields_at fs from r -> forall r', fields_at fs from r' -> r = r') /\
  (forall ps ws permit from good r, items_at ps ws permit from good r -> forall r', items_at ps ws permit from good r' -> r = r').
Proof.
  intros HT.
  assert (HB : forall (a b : Prop), a -> b -> a /\ b) by auto.
  set (P0 := fun f w from r => forall r', field_at f w from r' -> r = r').
  set (P1 := fun fs from r => forall r', fields_at fs from r' -> r = r').
  set (P2 := fun ps ws permit from good r => forall r', items_at ps ws permit from good r' -> r = r').
  assert (C0 : forall m named from n v, run_motif e m named from (skipn from msg) = Ok (n, v) -> P0 (RPlain m) named from (Some (from + n, v))).
  { intros m w from n v H r' H'. inversion H'; subst; congruence. }
  assert (C0' : forall m named from k, run_motif e m named from (skipn from msg) = Bad k -> P0 (RPlain m) named from None).
  { intros m w from k H r' H'. inversion H'; subst; congruence. }
  assert (C2 : forall T fs named from to vs, In (T, fs) types -> fields_at fs from (Some (to, vs)) -> P1 fs from (Some (to, vs)) -> P0 (RType T) named from (Some (to, JObj (stored [] vs)))).
  { intros T fs w from to vs Hin _ IH r' H'. inversion H' as [| |? fs' ? ? to' vs' Hin' HF'|? fs' ? ? Hin' HF'| | |]; subst; rewrite <- (HT _ _ _ Hin Hin') in HF'; apply IH in HF'; congruence. }
  assert (C3 : forall T fs named from, In (T, fs) types -> fields_at fs from None -> P1 fs from None -> P0 (RType T) named from None).
  { intros T fs w from Hin _ IH r' H'. inversion H' as [| |? fs' ? ? to' vs' Hin' HF'|? fs' ? ? Hin' HF'| | |]; subst; rewrite <- (HT _ _ _ Hin Hin') in HF'; apply IH in HF'; congruence. }
  assert (C4 : forall ps ws permit from to l, items_at ps ws permit from from (Some (to, l)) -> P2 ps ws permit from from (Some (to, l)) -> l <> [] -> P0 (RRepeat ps ws permit) true from (Some (to, JArr l))).
  { intros ps ws pe from to l _ IH Hl r' H'. inversion H' as [| | | |? ? ? ? ? ? HF'|? ? ? ? ? ? ? HF' Hx|? ? ? ? ? HF']; subst; apply IH in HF'; try congruence. }
  assert (C5 : forall ps ws permit (named : bool) from to l, items_at ps ws permit from from (Some (to, l)) -> P2 ps ws permit from from (Some (to, l)) -> (if named then l = [] else True) -> P0 (RRepeat ps ws permit) named from (Some (to, JNull))).
  { intros ps ws pe w from to l _ IH Hl r' H'. inversion H' as [| | | |? ? ? ? ? ? HF'|? ? ? ? ? ? ? HF' Hx|? ? ? ? ? HF']; subst; apply IH in HF'; try congruence. }
  assert (C6 : forall ps ws permit named from, items_at ps ws permit from from None -> P2 ps ws permit from from None -> P0 (RRepeat ps ws permit) named from None).
  { intros ps ws pe w from _ IH r' H'. inversion H' as [| | | |? ? ? ? ? ? HF'|? ? ? ? ? ? ? HF' Hx|? ? ? ? ? HF']; subst; apply IH in HF'; try congruence. }
  assert (D0 : forall from, P1 [] from (Some (from, []))) by (intros from r' H'; inversion H'; reflexivity).
  assert (D1 : forall f nm fs from mid v to vs, field_at f (has_name nm) from (Some (mid, v)) -> P0 f (has_name nm) from (Some (mid, v)) -> fields_at fs mid (Some (to, vs)) -> P1 fs mid (Some (to, vs)) -> P1 ((f, nm) :: fs) from (Some (to, (nm, v) :: vs))).
  { intros f nm fs from mid v to vs _ I0 _ I1 r' H'. inversion H' as [|? ? ? ? mid' v' to' vs' A B|? ? ? ? A|? ? ? ? mid' v' A B]; subst; apply I0 in A; try discriminate; injection A as <- <-; apply I1 in B; congruence. }
  assert (D2 : forall f nm fs from, field_at f (has_name nm) from None -> P0 f (has_name nm) from None -> P1 ((f, nm) :: fs) from None).
  { intros f nm fs from _ I0 r' H'. inversion H' as [|? ? ? ? mid' v' to' vs' A B|? ? ? ? A|? ? ? ? mid' v' A B]; subst; apply I0 in A; congruence. }
  assert (D3 : forall f nm fs from mid v, field_at f (has_name nm) from (Some (mid, v)) -> P0 f (has_name nm) from (Some (mid, v)) -> fields_at fs mid None -> P1 fs mid None -> P1 ((f, nm) :: fs) from None).
  { intros f nm fs from mid v _ I0 _ I1 r' H'. inversion H' as [|? ? ? ? mid' v' to' vs' A B|? ? ? ? A|? ? ? ? mid' v' A B]; subst; apply I0 in A; try discriminate; try reflexivity; injection A as <- <-; apply I1 in B; congruence. }
  assert (E : forall ps ws permit from good r', items_at ps ws permit from good r' ->
     (fields_at ps from None /\ r' = if permit then Some (good, []) else None) \/
     exists a vs, fields_at ps from (Some (a, vs)) /\
       ((fields_at ws a None /\ r' = Some (a, [item_value (stored [] vs)])) \/
        exists b us r2, fields_at ws a (Some (b, us)) /\ items_at ps ws permit b a r2 /\
          r' = match r2 with Some (to, l) => Some (to, item_value (stored [] vs) :: l) | None => None end)).
  { intros ps ws pe from good r' H'. inversion H'; subst; [left; auto|left; auto| | |]; right; eexists; eexists; (split; [eassumption|]).
    - left. auto.
    - right. eexists. eexists. exists (Some (to, l)). eauto.
    - right. eexists. eexists. exists None. eauto. }
  assert (I0 : forall ps ws from good, fields_at ps from None -> P1 ps from None -> P2 ps ws false from good None).
  { intros ps ws from good _ IH r' H'. apply E in H' as [[_ ->]|(a & vs & A & _)]; auto. apply IH in A. discriminate. }
  assert (I1 : forall ps ws from good, fields_at ps from None -> P1 ps from None -> P2 ps ws true from good (Some (good, []))).
  { intros ps ws from good _ IH r' H'. apply E in H' as [[_ ->]|(a & vs & A & _)]; auto. apply IH in A. discriminate. }
  assert (I2 : forall ps ws permit from good a vs, fields_at ps from (Some (a, vs)) -> P1 ps from (Some (a, vs)) -> fields_at ws a None -> P1 ws a None -> P2 ps ws permit from good (Some (a, [item_value (stored [] vs)]))).
  { intros ps ws pe from good a vs _ IA _ IB r' H'. apply E in H' as [[A _]|(a' & vs' & A & B)]; [apply IA in A; discriminate|]. apply IA in A. injection A as <- <-.
    destruct B as [[_ ->]|(b & us & r2 & B & _)]; auto. apply IB in B. discriminate. }
  assert (I3 : forall ps ws permit from good a vs b us to l, fields_at ps from (Some (a, vs)) -> P1 ps from (Some (a, vs)) -> fields_at ws a (Some (b, us)) -> P1 ws a (Some (b, us)) ->
    items_at ps ws permit b a (Some (to, l)) -> P2 ps ws permit b a (Some (to, l)) -> P2 ps ws permit from good (Some (to, item_value (stored [] vs) :: l))).
  { intros ps ws pe from good a vs b us to l _ IA _ IB _ IC r' H'. apply E in H' as [[A _]|(a' & vs' & A & B)]; [apply IA in A; discriminate|]. apply IA in A. injection A as <- <-.
    destruct B as [[B _]|(b' & us' & r2 & B & C & ->)]; apply IB in B; [discriminate|]. injection B as <- <-. apply IC in C. subst r2. reflexivity. }
  assert (I4 : forall ps ws permit from good a vs b us, fields_at ps from (Some (a, vs)) -> P1 ps from (Some (a, vs)) -> fields_at ws a (Some (b, us)) -> P1 ws a (Some (b, us)) ->
    items_at ps ws permit b a None -> P2 ps ws permit b a None -> P2 ps ws permit from good None).
  { intros ps ws pe from good a vs b us _ IA _ IB _ IC r' H'. apply E in H' as [[A _]|(a' & vs' & A & B)]; [apply IA in A; discriminate|]. apply IA in A. injection A as <- <-.
    destruct B as [[B _]|(b' & us' & r2 & B & C & ->)]; apply IB in B; [discriminate|]. injection B as <- <-. apply IC in C. subst r2. reflexivity. }
  split; [|split].
  - exact (field_at_mut e types msg P0 P1 P2 C0 C0' C2 C3 C4 C5 C6 D0 D1 D2 D3 I0 I1 I2 I3 I4).
  - exact (fields_at_mut e types msg P0 P1 P2 C0 C0' C2 C3 C4 C5 C6 D0 D1 D2 D3 I0 I1 I2 I3 I4).
  - exact (items_at_mut e types msg P0 P1 P2 C0 C0' C2 C3 C4 C5 C6 D0 D1 D2 D3 I0 I1 I2 I3 I4).
Qed.

(** the same outcome: values without a name do not matter *)
Definition alike (r r' : option (nat * list (option text * json))) : Prop :=
  match r, r' with
  | None, None => True
  | Some (to, vs), Some (to', vs') => to = to' /\ forall o, stored o vs = stored o vs'
  | _, _ => False
  end.
Lemma alike_refl r : alike r r. Proof. destruct r as [[to vs]|]; cbn; auto. Qed.
Lemma alike_sym r r' : alike r r' -> alike r' r.
Proof. destruct r as [[a b]|], r' as [[c d]|]; cbn; auto. intros [-> H]. auto. Qed.
Lemma alike_trans a b c : alike a b -> alike b c -> alike a c.
Proof. destruct a as [[? ?]|], b as [[? ?]|], c as [[? ?]|]; cbn; try tauto. intros [-> H] [-> H']. split; auto. intros o. rewrite H. auto. Qed.

Lemma skip_nonul k : ~ In NUL (skipn k msg). Proof. intros H. apply Hnul. rewrite <- (firstn_skipn k msg). apply in_or_app. auto. Qed.

(** a literal takes its text *)
Lemma lit_at t w from r : ~ In NUL t -> field_at (RPlain (MLiteral t)) w from r ->
  (exists pst, skipn from msg = t ++ pst) /\ r = Some (from + List.length t, if w then JStr t else JNull) \/
  (forall pst, skipn from msg <> t ++ pst) /\ r = None.
Proof.
  intros Ht H. inversion H as [? ? ? n v E|? ? ? k E| | | | |]; subst.
  - left. apply (lit_run e msg Hnul t w from n v Ht) in E as (HP & -> & ->). auto.
  - right. split; auto. intros pst Hp.
    assert (HX : run_motif e (MLiteral t) w from (skipn from msg) = Ok (List.length t, if w then JStr t else JNull)) by (apply (lit_run e msg Hnul); eauto). congruence.
Qed.
Lemma lit_at_ok t w from pst : ~ In NUL t -> skipn from msg = t ++ pst -> field_at (RPlain (MLiteral t)) w from (Some (from + List.length t, if w then JStr t else JNull)).
Proof. intros Ht Hp. apply fa_plain. apply (lit_run e msg Hnul t w from); eauto. Qed.
Lemma lit_at_no t w from : ~ In NUL t -> (forall pst, skipn from msg <> t ++ pst) -> field_at (RPlain (MLiteral t)) w from None.
Proof.
  intros Ht Hp. destruct (run_motif e (MLiteral t) w from (skipn from msg)) as [[n v]|k|u] eqn:E.
  - apply (lit_run e msg Hnul t w from n v Ht) in E as ((pst & HP) & _). destruct (Hp pst HP).
  - eapply fa_plain_no. exact E.
  - apply ParserSafe2.motif_ub in E. inversion E; subst. match goal with HI : In NUL _ |- _ => destruct (skip_nonul _ HI) end.
Qed.
Lemma skip_add from n : skipn (from + n) msg = skipn n (skipn from msg).
Proof. symmetry. apply skipn_skipn'. Qed.

Lemma chars_at t : ~ In NUL t -> forall l from r, fields_at (map C1 t ++ l) from r ->
  (exists pst, skipn from msg = t ++ pst) /\ (exists r', fields_at l (from + List.length t) r' /\ alike r r') \/ (forall pst, skipn from msg <> t ++ pst) /\ r = None.
Proof.
  induction t as [|c t IH]; intros Ht l from r H; cbn [map app List.length] in *.
  - left. split; [eauto|]. rewrite Nat.add_0_r. exists r. split; auto. apply alike_refl.
  - assert (Hc : ~ In NUL [c]) by (intros [Hx|[]]; apply Ht; left; auto). assert (Ht' : ~ In NUL t) by (intros Hx; apply Ht; right; auto).
    inversion H as [|? ? ? ? mid v to vs A B|? ? ? ? A|? ? ? ? mid v A B]; subst.
    + apply (lit_at [c] _ _ _ Hc) in A as [[[pst E] A]|[_ A]]; [|discriminate]. cbn [has_name List.length] in A. injection A as -> ->.
      apply (IH Ht') in B as [[[pst' E'] (r' & B & HA)]|[HN B]]; [|discriminate]. left.
      rewrite skip_add, E in E'. cbn in E'. subst pst. split; [exists pst'; exact E|]. exists r'. replace (from + S (List.length t)) with (from + 1 + List.length t) by lia. split; auto.
    + right. split; auto. apply (lit_at [c] _ _ _ Hc) in A as [[_ A]|[HN _]]; [discriminate|]. intros pst HP. apply (HN (t ++ pst)). exact HP.
    + apply (lit_at [c] _ _ _ Hc) in A as [[[pst E] A]|[_ A]]; [|discriminate]. cbn [has_name List.length] in A. injection A as -> ->.
      apply (IH Ht') in B as [[[pst' E'] (r' & B & HA)]|[HN B]].
      * left. rewrite skip_add, E in E'. cbn in E'. subst pst. split; [exists pst'; exact E|]. exists r'. replace (from + S (List.length t)) with (from + 1 + List.length t) by lia. split; auto.
      * right. split; auto. intros pst0 HP. apply (HN pst0). rewrite skip_add, HP. reflexivity.
Qed.
Lemma chars_at_ok t : ~ In NUL t -> forall l from pst r, skipn from msg = t ++ pst -> fields_at l (from + List.length t) r -> exists r', fields_at (map C1 t ++ l) from r' /\ alike r' r.
Proof.
  induction t as [|c t IH]; intros Ht l from pst r HP H; cbn [map app List.length] in *.
  - rewrite Nat.add_0_r in H. exists r. split; auto. apply alike_refl.
  - assert (Hc : ~ In NUL [c]) by (intros [Hx|[]]; apply Ht; left; auto). assert (Ht' : ~ In NUL t) by (intros Hx; apply Ht; right; auto).
    destruct (IH Ht' l (from + 1) pst r) as (r' & H1 & H2).
    + rewrite skip_add, HP. reflexivity.
    + replace (from + 1 + List.length t) with (from + S (List.length t)) by lia. exact H.
    + pose proof (lit_at_ok [c] false from (t ++ pst) Hc HP) as HL. destruct r' as [[to vs]|].
      * exists (Some (to, (None, JNull) :: vs)). split; [eapply fs_cons; [exact HL|exact H1]|]. destruct r as [[? ?]|]; cbn in *; auto.
      * exists None. split; [|exact H2]. eapply fs_later_no; [exact HL|exact H1].
Qed.
Lemma chars_at_no t : ~ In NUL t -> forall l from, (forall pst, skipn from msg <> t ++ pst) -> fields_at (map C1 t ++ l) from None.
Proof.
  induction t as [|c t IH]; intros Ht l from HP; cbn [map app List.length] in *.
  - destruct (HP (skipn from msg)). reflexivity.
  - assert (Hc : ~ In NUL [c]) by (intros [Hx|[]]; apply Ht; left; auto). assert (Ht' : ~ In NUL t) by (intros Hx; apply Ht; right; auto).
    destruct (skipn from msg) as [|x m] eqn:E.
    + apply fs_first_no. apply lit_at_no; auto. intros pst. rewrite E. discriminate.
    + destruct (ascii_dec x c) as [->|Hn].
      * eapply fs_later_no; [apply (lit_at_ok [c] false from m Hc E)|]. apply (IH Ht'). intros pst Hp. cbn [List.length] in Hp. rewrite skip_add, E in Hp. cbn in Hp. apply (HP pst). cbn. congruence.
      * apply fs_first_no. apply lit_at_no; auto. intros pst. rewrite E. cbn. congruence.
Qed.

Definition lits_ok (f : rfield) : Prop := match f with RPlain (MLiteral t) => ~ In NUL t | _ => True end.

(** one field in front *)
Lemma chop_ok f nm l from mid v r : lits_ok f -> field_at f (has_name nm) from (Some (mid, v)) -> fields_at l mid r ->
  exists r', fields_at (chop (f, nm) ++ l) from r' /\ alike r' (match r with Some (to, vs) => Some (to, (nm, v) :: vs) | None => None end).
Proof.
  intros Hf HA HB. destruct (chop_cases f nm) as [(t & -> & -> & ->)| ->].
  - apply (lit_at t _ _ _ Hf) in HA as [[[pst E] HA]|[_ HA]]; [|discriminate]. injection HA as -> ->.
    destruct (chars_at_ok t Hf l from pst r E HB) as (r' & H1 & H2). exists r'. split; auto. destruct r as [[? ?]|]; exact H2.
  - cbn [app]. destruct r as [[to vs]|]; eexists; (split; [|apply alike_refl]); [eapply fs_cons|eapply fs_later_no]; eauto.
Qed.
Lemma chop_no f nm l from : lits_ok f -> field_at f (has_name nm) from None -> fields_at (chop (f, nm) ++ l) from None.
Proof.
  intros Hf HA. destruct (chop_cases f nm) as [(t & -> & -> & ->)| ->].
  - apply (lit_at t _ _ _ Hf) in HA as [[_ HA]|[HA _]]; [discriminate|]. apply chars_at_no; auto.
  - cbn [app]. apply fs_first_no. exact HA.
Qed.
(** and back *)
Lemma norm_at fs : Forall (fun f => lits_ok (fst f)) fs -> forall from r, fields_at (norm fs) from r -> exists r', fields_at fs from r' /\ alike r r'.
Proof.
  intros HF. induction HF as [|[f nm] fs Hf HF IH]; intros from r H; cbn [norm flat_map] in H.
  - exists r. split; auto. apply alike_refl.
  - fold (norm fs) in H. cbn [fst] in Hf. destruct (chop_cases f nm) as [(t & -> & -> & E)|E]; rewrite E in H.
    + apply (chars_at t Hf) in H as [[[pst HP] (r1 & H1 & HA)]|[HN ->]].
      * apply IH in H1 as (r2 & H2 & HB). pose proof (lit_at_ok t false from pst Hf HP) as HL. cbn [has_name] in *.
        exists (match r2 with Some (to, vs) => Some (to, (None, JNull) :: vs) | None => None end).
        split; [destruct r2 as [[to vs]|]; [eapply fs_cons|eapply fs_later_no]; eauto|]. eapply alike_trans; [exact HA|]. eapply alike_trans; [exact HB|]. destruct r2 as [[to vs]|]; cbn; auto.
      * exists None. split; [|exact I]. apply fs_first_no. apply lit_at_no; auto.
    + cbn [app] in H. inversion H as [|? ? ? ? mid v to vs A B|? ? ? ? A|? ? ? ? mid v A B]; subst.
      * apply IH in B as ([[to' vs']|] & B & HA); [|destruct HA]. destruct HA as [<- HA]. exists (Some (to, (nm, v) :: vs')). split; [eapply fs_cons; eauto|].
        split; auto. intros o. cbn. fold (stored o vs) (stored o vs'). rewrite HA. reflexivity.
      * exists None. split; [|exact I]. apply fs_first_no; auto.
      * apply IH in B as ([[to' vs']|] & B & HA); [destruct HA|]. exists None. split; [|exact I]. eapply fs_later_no; eauto.
Qed.
End Meaning.
