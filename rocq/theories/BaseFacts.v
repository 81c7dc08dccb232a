(** * BaseFacts: lemmas about the shared definitions. *)
From Verif Require Import Base Time Parsers.
From Coq Require Import ZifyBool ZifyNat ZifyN.

(** ** Characters *)
Lemma ceq_true a b : ceq a b = true <-> a = b.
Proof. apply Ascii.eqb_eq. Qed.
Lemma ceq_false a b : ceq a b = false <-> a <> b.
Proof. apply Ascii.eqb_neq. Qed.
Lemma ceq_refl a : ceq a a = true.
Proof. apply ceq_true; reflexivity. Qed.
Lemma ceq_sym a b : ceq a b = ceq b a.
Proof. apply Ascii.eqb_sym. Qed.

Lemma text_eqb_true a : forall b, text_eqb a b = true <-> a = b.
Proof.
  induction a as [|x a IH]; intros [|y b]; cbn; split; intros H; try discriminate; auto.
  - apply andb_true_iff in H as [H1 H2]. apply ceq_true in H1. apply IH in H2. congruence.
  - injection H as -> ->. rewrite ceq_refl. apply IH. reflexivity.
Qed.
Lemma text_eqb_refl a : text_eqb a a = true.
Proof. apply text_eqb_true; reflexivity. Qed.
Lemma text_eqb_false a b : text_eqb a b = false <-> a <> b.
Proof.
  destruct (text_eqb a b) eqn:E; split; intros H; try discriminate; auto.
  - apply text_eqb_true in E. contradiction.
  - intros ->. rewrite text_eqb_refl in E. discriminate.
Qed.

(** ** scan *)
Lemma scan_le P t : scan P t <= List.length t.
Proof. induction t as [|c t IH]; cbn; [lia|]. destruct (P c); lia. Qed.

Lemma scan_app_stop P a c b : Forall (fun x => P x = true) a -> P c = false ->
  scan P (a ++ c :: b) = List.length a.
Proof.
  induction a as [|x a IH]; cbn; intros HF Hc.
  - rewrite Hc. reflexivity.
  - inversion HF; subst. rewrite H1. rewrite IH; auto.
Qed.

Lemma scan_all P a : Forall (fun x => P x = true) a -> scan P a = List.length a.
Proof. induction a as [|x a IH]; cbn; intros HF; auto. inversion HF; subst. rewrite H1, IH; auto. Qed.

(** what [scan] says: everything before satisfies P, what follows does not. *)
Lemma scan_spec P t : Forall (fun x => P x = true) (firstn (scan P t) t) /\
  match skipn (scan P t) t with [] => True | c :: _ => P c = false end.
Proof.
  induction t as [|c t [IH1 IH2]]; cbn; [split; auto|].
  destruct (P c) eqn:E; cbn; [split; [constructor; auto|auto]|]. split; [constructor|exact E].
Qed.

Lemma scan_unique P t k : k <= List.length t ->
  Forall (fun x => P x = true) (firstn k t) ->
  match skipn k t with [] => True | c :: _ => P c = false end -> k = scan P t.
Proof.
  revert k. induction t as [|c t IH]; intros [|k] Hk HF Hs; cbn in *; try lia; auto.
  - rewrite Hs. reflexivity.
  - inversion HF; subst. rewrite H1. f_equal. apply IH; auto. lia.
Qed.

Lemma scan_zero P t : scan P t = 0 <-> match t with [] => True | c :: _ => P c = false end.
Proof. destruct t as [|c t]; cbn; [tauto|]. destruct (P c); split; intros; auto; try discriminate. Qed.

(** The C loop [while(i < strLen && P(c[i])) ++i;] over checked reads, with any bound on
    the number of rounds that is large enough, stops exactly at [scan]. *)
Fixpoint loop_reads (fuel : nat) (P : ascii -> bool) (t : text) (i : nat) : res nat :=
  match fuel with
  | O => Ub OutOfFuel
  | S f => if Nat.ltb i (List.length t) then
             let* c := rd t i in if P c then loop_reads f P t (S i) else Ok i
           else Ok i
  end.
Lemma nth_error_skipn_hd {A} (t : list A) i :
  nth_error t i = match skipn i t with [] => None | c :: _ => Some c end.
Proof. revert i; induction t as [|c t IH]; intros [|i]; cbn; auto. Qed.
Lemma skipn_skipn' {A} (t : list A) i j : skipn i (skipn j t) = skipn (j + i) t.
Proof. revert t; induction j as [|j IH]; intros t; cbn; auto. destruct t; [destruct i; reflexivity|apply IH]. Qed.
Lemma skipn_S_tl {A} (t : list A) i c r : skipn i t = c :: r -> skipn (S i) t = r.
Proof. intros H. replace (S i) with (i + 1) by lia. rewrite <- skipn_skipn', H. reflexivity. Qed.
Lemma scan_is_loop P t : forall fuel i, i <= List.length t -> List.length t - i < fuel ->
  loop_reads fuel P t i = Ok (i + scan P (skipn i t)).
Proof.
  induction fuel as [|f IH]; intros i Hi Hf; [lia|]. cbn [loop_reads].
  destruct (Nat.ltb_spec i (List.length t)) as [Hlt|Hge].
  - unfold rd. rewrite nth_error_skipn_hd. destruct (skipn i t) as [|c r] eqn:E.
    + pose proof (skipn_length i t) as HL. rewrite E in HL. cbn in HL. lia.
    + cbn [bind scan]. destruct (P c).
      * rewrite IH by lia. rewrite (skipn_S_tl _ _ _ _ E). f_equal. lia.
      * f_equal. lia.
  - assert (i = List.length t) by lia. subst i. rewrite skipn_all. cbn. f_equal. lia.
Qed.

(** ** The outcome predicate: on success [P], undefined behaviour only of the kinds in [U]. *)
Definition post {A} (U : ub -> Prop) (P : A -> Prop) (r : res A) : Prop :=
  match r with Ok a => P a | Bad _ => True | Ub u => U u end.

Lemma post_bind {A B} U (Q : A -> Prop) (P : B -> Prop) x f :
  post U Q x -> (forall a, Q a -> post U P (f a)) -> post U P (bind x f).
Proof. destruct x; cbn; auto. Qed.
Lemma post_check {A} U (P : A -> Prop) (b : bool) k :
  (b = true -> post U P k) -> post U P (if b then k else Bad 0).
Proof. destruct b; cbn; auto. Qed.
Lemma post_mono {A} U (P Q : A -> Prop) r : post U P r -> (forall a, P a -> Q a) -> post U Q r.
Proof. destruct r; cbn; auto. Qed.
Lemma post_monoU {A} (U V : ub -> Prop) (P : A -> Prop) r : post U P r -> (forall u, U u -> V u) -> post V P r.
Proof. destruct r; cbn; auto. Qed.

Lemma post_rd U t k : k <= List.length t ->
  post U (fun c => nth_error t k = Some c \/ (k = List.length t /\ c = NUL)) (rd t k).
Proof.
  intros H. unfold rd. destruct (nth_error t k) eqn:E; cbn; auto.
  apply nth_error_None in E. assert (k = List.length t) by lia. subst.
  rewrite Nat.eqb_refl. cbn. auto.
Qed.

Lemma rd_lt t k c : nth_error t k = Some c \/ (k = List.length t /\ c = NUL) -> c <> NUL ->
  k < List.length t.
Proof. intros [H|[_ H]] Hc; [apply nth_error_Some; congruence|contradiction]. Qed.

Lemma rd_in t k c : nth_error t k = Some c -> rd t k = Ok c.
Proof. intros H. unfold rd. rewrite H. reflexivity. Qed.

Lemma in_range_nz lo hi c : in_range lo hi c = true -> (0 < lo)%N -> c <> NUL.
Proof. intros H Hlo ->. unfold in_range in H. cbn in H. lia. Qed.
Lemma isdigit_nz c : isdigit c = true -> c <> NUL.
Proof. intros H. eapply in_range_nz; [exact H|lia]. Qed.
Lemma isspace_nz c : isspace c = true -> c <> NUL.
Proof. intros H ->. vm_compute in H. discriminate. Qed.
Lemma isxdigit_nz c : isxdigit c = true -> c <> NUL.
Proof. intros H ->. vm_compute in H. discriminate. Qed.
Lemma isalpha_nz c : isalpha c = true -> c <> NUL.
Proof. intros H ->. vm_compute in H. discriminate. Qed.

Lemma firstn_skipn_len {A} (t : list A) n : n <= List.length t -> List.length (firstn n t) = n.
Proof. intros. rewrite firstn_length. lia. Qed.
