(** * ConcFacts: what a thread computes does not depend on the schedule. *)
From Verif Require Import Base BaseFacts Time Parsers Engine EngineFacts2 EngineHist Conc.
From Coq Require Import Permutation.

(** The program run by itself on a context that does not change: result, number of steps,
    increments. *)
Fixpoint den {A} (c : ctx) (p : prog A) : er A :=
  match p with
  | PRet a => EOk a
  | PUb u => EUb u
  | PRead i k => match get_node (c_nodes c) i with EOk n => den c (k (view_of n)) | EUb u => EUb u end
  | PType ti k => match nth_error (c_types c) ti with Some (_, tn) => den c (k tn) | None => EUb OobIndex end
  | POpts k => den c (k (c_opts c))
  | PInc i b k => match get_node (c_nodes c) i with EOk _ => den c k | EUb u => EUb u end
  | PSto i b v k => den c k
  end.
Fixpoint size {A} (at_ : bool) (c : ctx) (p : prog A) : nat :=
  match p with
  | PRet a => 0
  | PUb u => 0
  | PRead i k => S (match get_node (c_nodes c) i with EOk n => size at_ c (k (view_of n)) | EUb u => 0 end)
  | PType ti k => S (match nth_error (c_types c) ti with Some (_, tn) => size at_ c (k tn) | None => 0 end)
  | POpts k => S (size at_ c (k (c_opts c)))
  | PInc i b k => S (match get_node (c_nodes c) i with EOk _ => if at_ then size at_ c k else S (size at_ c k) | EUb u => 0 end)
  | PSto i b v k => S (size at_ c k)
  end.
Fixpoint incs {A} (c : ctx) (p : prog A) : list (nat * bool) :=
  match p with
  | PRet a => []
  | PUb u => []
  | PRead i k => match get_node (c_nodes c) i with EOk n => incs c (k (view_of n)) | EUb u => [] end
  | PType ti k => match nth_error (c_types c) ti with Some (_, tn) => incs c (k tn) | None => [] end
  | POpts k => incs c (k (c_opts c))
  | PInc i b k => match get_node (c_nodes c) i with EOk _ => (i, b) :: incs c k | EUb u => [] end
  | PSto i b v k => incs c k
  end.
(** No store pending. *)
Fixpoint clean {A} (p : prog A) : Prop :=
  match p with
  | PRet _ | PUb _ => True
  | PRead i k => forall n, clean (k n)
  | PType ti k => forall n, clean (k n)
  | POpts k => forall n, clean (k n)
  | PInc i b k => clean k
  | PSto _ _ _ _ => False
  end.

Lemma den_bind {A B} c (p : prog A) (f : A -> prog B) : den c (pbind p f) = ebind (den c p) (fun a => den c (f a)).
Proof.
  induction p as [a|u|i k IH|ti k IH|k IH|i b k IH|i b v k IH]; cbn; auto.
  - destruct (get_node (c_nodes c) i); cbn; auto.
  - destruct (nth_error (c_types c) ti) as [[? ?]|]; cbn; auto.
  - destruct (get_node (c_nodes c) i); cbn; auto.
Qed.
Lemma incs_bind {A B} c (p : prog A) (f : A -> prog B) : 
  incs c (pbind p f) = incs c p ++ match den c p with EOk a => incs c (f a) | EUb _ => [] end.
Proof.
  induction p as [a|u|i k IH|ti k IH|k IH|i b k IH|i b v k IH]; cbn; auto.
  - destruct (get_node (c_nodes c) i); cbn; auto.
  - destruct (nth_error (c_types c) ti) as [[? ?]|]; cbn; auto.
  - destruct (get_node (c_nodes c) i); cbn; auto. f_equal. auto.
Qed.
Lemma clean_bind {A B} (p : prog A) (f : A -> prog B) : clean p -> (forall a, clean (f a)) -> clean (pbind p f).
Proof. intros H HF. induction p as [a|u|i k IH|ti k IH|k IH|i b k IH|i b v k IH]; cbn in *; auto. Qed.
Lemma den_lift {A} c (x : er A) : den c (lift x) = x. Proof. destruct x; auto. Qed.
Lemma incs_lift {A} c (x : er A) : incs c (lift x) = []. Proof. destruct x; auto. Qed.
Lemma clean_lift {A} (x : er A) : clean (lift x). Proof. destruct x; cbn; auto. Qed.

Lemma size_done {A} at_ c (p : prog A) : size at_ c p = 0 -> match den c p with EOk a => p = PRet a | EUb u => p = PUb u end.
Proof. destruct p; cbn; try discriminate; auto. Qed.

(** Two contexts that differ in counters only look the same to a thread. *)
Lemma view_same n n' : same_node n n' -> view_of n = view_of n'.
Proof. intros (H1 & H2 & H3 & _ & H4 & H5). unfold view_of. congruence. Qed.
Lemma put_same h i b f : Forall2 same_slot h (upd_node h i (fun n => put n b (f n))).
Proof.
  unfold upd_node. revert i. induction h as [|x h IH]; intros [|i]; cbn; constructor; auto using same_slot_refl, F2_refl.
  destruct x; cbn; auto. repeat split.
Qed.
Lemma same_put cx i b f : same_ctx cx (set_nodes cx (upd_node (c_nodes cx) i (fun n => put n b (f n)))).
Proof. split; [apply put_same|repeat split]. Qed.

Lemma exec1_inv {A} at_ c cx (p : prog A) cx' p' : same_ctx c cx -> exec1 at_ cx p = (cx', p') ->
  same_ctx c cx' /\ den c p' = den c p /\ size at_ c p' = pred (size at_ c p).
Proof.
  intros HS H. destruct p as [a|u|i k|ti k|k|i b k|i b v k]; cbn in *.
  - injection H as <- <-. auto.
  - injection H as <- <-. auto.
  - injection H as <- <-. split; auto. pose proof (get_node_same c cx HS i) as Hn.
    destruct (get_node (c_nodes c) i), (get_node (c_nodes cx) i); try tauto.
    + rewrite (view_same _ _ Hn). auto.
    + subst. auto.
  - injection H as <- <-. split; auto. destruct HS as (_ & _ & <- & _).
    destruct (nth_error (c_types c) ti) as [[? ?]|]; auto.
  - injection H as <- <-. split; auto. destruct HS as (_ & _ & _ & _ & _ & <- & _). auto.
  - pose proof (get_node_same c cx HS i) as Hn.
    destruct (get_node (c_nodes c) i) as [n0|u0], (get_node (c_nodes cx) i) as [n1|u1]; try tauto.
    + destruct at_; injection H as <- <-; auto. split; auto. eapply same_ctx_trans; [exact HS|].
      apply (same_put cx i b (fun n => ((counter n b + 1) mod 2 ^ 32)%N)).
    + injection H as <- <-. subst. auto.
  - injection H as <- <-. split; auto. eapply same_ctx_trans; [exact HS|]. apply (same_put cx i b (fun _ => v)).
Qed.

(** ** The machine *)
Lemma turn_inv {A} at_ c : forall ts t cx cx' (ts' : list (prog A)), same_ctx c cx -> turn at_ t cx ts = (cx', ts') ->
  same_ctx c cx' /\ List.length ts' = List.length ts /\
  forall i p, nth_error ts i = Some p -> exists p', nth_error ts' i = Some p' /\ den c p' = den c p /\
    size at_ c p' = size at_ c p - (if Nat.eqb i t then 1 else 0).
Proof.
  induction ts as [|p0 ts IH]; intros t cx cx' ts' HS H; cbn [turn] in H.
  - injection H as <- <-. split; auto. split; auto. intros [|i] p Hp; discriminate.
  - destruct t as [|t].
    + destruct (exec1 at_ cx p0) as [cx1 p1] eqn:E. injection H as <- <-. destruct (exec1_inv _ _ _ _ _ _ HS E) as (H1 & H2 & H3).
      split; auto. split; auto. intros [|i] p Hp; cbn in Hp |- *.
      * injection Hp as <-. exists p1. split; auto. split; auto. lia.
      * exists p. split; auto. split; auto. lia.
    + destruct (turn at_ t cx ts) as [cx1 ts1] eqn:E. injection H as <- <-. destruct (IH _ _ _ _ HS E) as (H1 & H2 & H3).
      split; auto. split; [cbn; lia|]. intros [|i] p Hp; cbn in Hp |- *.
      * exists p. split; auto. split; auto. lia.
      * apply H3. exact Hp.
Qed.
Lemma run_inv {A} at_ c : forall sched cx (ts : list (prog A)) cx' ts', same_ctx c cx -> run_threads at_ sched cx ts = (cx', ts') ->
  same_ctx c cx' /\ List.length ts' = List.length ts /\
  forall i p, nth_error ts i = Some p -> exists p', nth_error ts' i = Some p' /\ den c p' = den c p /\
    size at_ c p' = size at_ c p - count_occ Nat.eq_dec sched i.
Proof.
  induction sched as [|t sched IH]; intros cx ts cx' ts' HS H; cbn [run_threads] in H.
  - injection H as <- <-. split; auto. split; auto. intros i p Hp. exists p. split; auto. split; auto. cbn. lia.
  - destruct (turn at_ t cx ts) as [cx1 ts1] eqn:E. destruct (turn_inv _ _ _ _ _ _ _ HS E) as (H1 & H2 & H3).
    destruct (IH _ _ _ _ H1 H) as (H4 & H5 & H6). split; auto. split; [lia|]. intros i p Hp.
    destruct (H3 i p Hp) as (p1 & Hp1 & Hd1 & Hs1). destruct (H6 i p1 Hp1) as (p2 & Hp2 & Hd2 & Hs2).
    exists p2. split; auto. split; [congruence|]. cbn [count_occ]. rewrite Hs2, Hs1.
    destruct (Nat.eq_dec t i) as [->|Hne]; [rewrite Nat.eqb_refl; lia|].
    destruct (Nat.eqb_spec i t); [congruence|lia].
Qed.

(** ** Counters, when increments are atomic *)
Definition inc1 (h : list (option node)) (x : nat * bool) : list (option node) := upd_node h (fst x) (fun n => bump n (snd x)).
Lemma put_bump n b : put n b ((counter n b + 1) mod 2 ^ 32)%N = bump n b.
Proof. destruct b; reflexivity. Qed.
Lemma upd_nth_ext {A} (f g : A -> A) : (forall a, f a = g a) -> forall l i, upd_nth l i f = upd_nth l i g.
Proof. intros H. induction l as [|x l IH]; intros [|i]; cbn; auto; [rewrite H; auto|f_equal; auto]. Qed.
Lemma put_inc h i b : upd_node h i (fun n => put n b ((counter n b + 1) mod 2 ^ 32)%N) = inc1 h (i, b).
Proof. unfold inc1, upd_node. apply upd_nth_ext. intros [n|]; cbn [option_map]; auto. rewrite put_bump. auto. Qed.
Lemma bump_comm n b b' : bump (bump n b) b' = bump (bump n b') b.
Proof. destruct b, b'; reflexivity. Qed.
Lemma inc1_comm h x y : inc1 (inc1 h x) y = inc1 (inc1 h y) x.
Proof.
  destruct x as [i b], y as [j b']. unfold inc1, upd_node. cbn [fst snd]. revert i j.
  induction h as [|s h IH]; intros [|i] [|j]; cbn [upd_nth]; auto.
  - destruct s; cbn [option_map]; auto. rewrite bump_comm. auto.
  - f_equal. apply IH.
Qed.
Lemma incs_perm : forall l l', Permutation l l' -> forall h, fold_left inc1 l h = fold_left inc1 l' h.
Proof.
  induction 1; intros h; cbn [fold_left]; auto.
  - rewrite inc1_comm. auto.
  - rewrite IHPermutation1. auto.
Qed.

Lemma exec1_atomic {A} c cx (p : prog A) cx' p' : same_ctx c cx -> clean p -> exec1 true cx p = (cx', p') ->
  clean p' /\ exists l, incs c p = l ++ incs c p' /\ cx' = set_nodes cx (fold_left inc1 l (c_nodes cx)).
Proof.
  intros HS HC H. assert (Hid : set_nodes cx (c_nodes cx) = cx) by (destruct cx; reflexivity).
  destruct p as [a|u|i k|ti k|k|i b k|i b v k]; cbn in *.
  - injection H as <- <-. split; auto. exists []. split; cbn [fold_left]; auto.
  - injection H as <- <-. split; auto. exists []. split; cbn [fold_left]; auto.
  - injection H as <- <-. pose proof (get_node_same c cx HS i) as Hn.
    destruct (get_node (c_nodes c) i), (get_node (c_nodes cx) i); try tauto.
    + rewrite (view_same _ _ Hn). split; auto. exists []. split; cbn [fold_left]; auto.
    + split; [exact I|]. exists []. split; cbn [fold_left]; auto.
  - injection H as <- <-. destruct HS as (_ & _ & <- & _).
    destruct (nth_error (c_types c) ti) as [[? ?]|]; (split; [cbn; auto|]); exists []; split; cbn [fold_left]; auto.
  - injection H as <- <-. destruct HS as (_ & _ & _ & _ & _ & <- & _). split; auto. exists []. split; cbn [fold_left]; auto.
  - pose proof (get_node_same c cx HS i) as Hn.
    destruct (get_node (c_nodes c) i) as [n0|u0], (get_node (c_nodes cx) i) as [n1|u1]; try tauto.
    + injection H as <- <-. split; auto. exists [(i, b)]. split; auto. cbn [fold_left]. rewrite put_inc. auto.
    + injection H as <- <-. split; [exact I|]. exists []. split; cbn [fold_left]; auto.
  - tauto.
Qed.
Definition todo {A} c (ts : list (prog A)) : list (nat * bool) := List.concat (map (incs c) ts).
Lemma turn_atomic {A} c : forall ts t cx cx' (ts' : list (prog A)), same_ctx c cx -> Forall clean ts -> turn true t cx ts = (cx', ts') ->
  Forall clean ts' /\ exists l, Permutation (todo c ts) (l ++ todo c ts') /\ cx' = set_nodes cx (fold_left inc1 l (c_nodes cx)).
Proof.
  induction ts as [|p0 ts IH]; intros t cx cx' ts' HS HC H; cbn [turn] in H.
  - injection H as <- <-. split; auto. exists []. split; [reflexivity|]. destruct cx; reflexivity.
  - inversion HC as [|? ? HC0 HC1]; subst. destruct t as [|t].
    + destruct (exec1 true cx p0) as [cx1 p1] eqn:E. injection H as <- <-. destruct (exec1_atomic _ _ _ _ _ HS HC0 E) as (H1 & l & H2 & H3).
      split; [constructor; auto|]. exists l. split; auto. unfold todo. cbn. rewrite H2, <- app_assoc. reflexivity.
    + destruct (turn true t cx ts) as [cx1 ts1] eqn:E. injection H as <- <-. destruct (IH _ _ _ _ HS HC1 E) as (H1 & l & H2 & H3).
      split; [constructor; auto|]. exists l. split; auto. unfold todo in *. cbn. rewrite H2. rewrite Permutation_app_swap_app. reflexivity.
Qed.
Lemma run_atomic {A} c : forall sched cx (ts : list (prog A)) cx' ts', same_ctx c cx -> Forall clean ts -> run_threads true sched cx ts = (cx', ts') ->
  exists l, Permutation (todo c ts) (l ++ todo c ts') /\ cx' = set_nodes cx (fold_left inc1 l (c_nodes cx)).
Proof.
  induction sched as [|t sched IH]; intros cx ts cx' ts' HS HC H; cbn [run_threads] in H.
  - injection H as <- <-. exists []. split; [reflexivity|]. destruct cx; reflexivity.
  - destruct (turn true t cx ts) as [cx1 ts1] eqn:E. destruct (turn_inv _ _ _ _ _ _ _ HS E) as (H1 & _).
    destruct (turn_atomic _ _ _ _ _ _ HS HC E) as (HC1 & l1 & Hp1 & ->).
    destruct (IH _ _ _ _ H1 HC1 H) as (l2 & Hp2 & ->). exists (l1 ++ l2). split.
    + rewrite Hp1, Hp2, app_assoc. reflexivity.
    + rewrite fold_left_app. reflexivity.
Qed.

(** ** The engine *)
Section Engine.
Variables (e : env) (c : ctx) (msg : text).

Definition recOK (rec : nat -> nat -> bool -> rst -> er (bool * rst)) (recP : nat -> nat -> bool -> rst -> prog (bool * rst)) : Prop :=
  forall nd o p s, den c (recP nd o p s) = rec nd o p s /\ clean (recP nd o p s) /\
    forall ok s', rec nd o p s = EOk (ok, s') -> r_log s' = rev (incs c (recP nd o p s)) ++ r_log s.
Variables (rec : nat -> nat -> bool -> rst -> er (bool * rst)) (recP : nat -> nat -> bool -> rst -> prog (bool * rst)).
Hypothesis HR : recOK rec recP.

Ltac use nd o p s :=
  let Hd := fresh "Hd" in let Hc := fresh "Hc" in let Hl := fresh "Hl" in
  destruct (HR nd o p s) as (Hd & Hc & Hl).

Lemma repeat_den : forall f pn wn permit strt lkg arr s,
  den c (repeat_loopP recP f pn wn permit strt lkg arr s) = repeat_loop rec f pn wn permit strt lkg arr s.
Proof.
  induction f as [|f IH]; intros; cbn [repeat_loopP repeat_loop]; auto. rewrite den_bind. use pn strt true (set_end (set_js s (Some [])) None).
  rewrite Hd. destruct (rec pn strt true _) as [[ok s1]|u]; cbn [ebind]; auto. destruct (negb ok); [destruct permit; auto|].
  cbv zeta. rewrite den_bind. use wn (r_pt s1) true (set_end (set_js (set_pt s1 0) None) None). rewrite Hd0.
  destruct (rec wn _ true _) as [[ok2 s2]|u]; cbn [ebind]; auto. destruct ok2; auto.
Qed.
Lemma repeat_clean : forall f pn wn permit strt lkg arr s, clean (repeat_loopP recP f pn wn permit strt lkg arr s).
Proof.
  induction f as [|f IH]; intros; cbn [repeat_loopP]; [exact I|]. apply clean_bind; [apply HR|]. intros [ok s1]. 
  destruct (negb ok); [destruct permit; exact I|]. cbv zeta. apply clean_bind; [apply HR|]. intros [ok2 s2]. destruct ok2; [apply IH|exact I].
Qed.
Lemma repeat_log : forall f pn wn permit strt lkg arr s o s', repeat_loop rec f pn wn permit strt lkg arr s = EOk (o, s') ->
  r_log s' = rev (incs c (repeat_loopP recP f pn wn permit strt lkg arr s)) ++ r_log s.
Proof.
  induction f as [|f IH]; intros pn wn permit strt lkg arr s o s' H; cbn [repeat_loop] in H; [discriminate|].
  cbn [repeat_loopP]. rewrite incs_bind. use pn strt true (set_end (set_js s (Some [])) None). rewrite Hd.
  destruct (rec pn strt true _) as [[ok s1]|u]; cbn [ebind] in H; [|discriminate]. specialize (Hl _ _ eq_refl). cbn [set_end set_js r_log] in Hl.
  destruct (negb ok).
  - destruct permit; injection H as <- <-; cbn [incs]; rewrite app_nil_r; exact Hl.
  - cbv zeta in H |- *. rewrite incs_bind. use wn (r_pt s1) true (set_end (set_js (set_pt s1 0) None) None). rewrite Hd0.
    destruct (rec wn _ true _) as [[ok2 s2]|u]; cbn [ebind] in H; [|discriminate]. specialize (Hl0 _ _ eq_refl). cbn [set_end set_js set_pt r_log] in Hl0.
    destruct ok2.
    + apply IH in H. rewrite H, Hl0, Hl. rewrite !rev_app_distr, !app_assoc. reflexivity.
    + injection H as <- <-. cbn [incs]. rewrite app_nil_r, Hl0, Hl, rev_app_distr, app_assoc. reflexivity.
Qed.

Lemma try_den rf p offs s : den c (tryParserP e msg recP rf p offs s) = tryParser e c msg rec rf p offs s.
Proof.
  unfold tryParserP, tryParser. destruct (p_kind p) as [m|pn wn permit|ti].
  - destruct (Nat.ltb _ _); auto. destruct (run_motif _ _ _ _ _) as [[n v]| |]; auto.
  - rewrite den_bind, repeat_den. destruct (repeat_loop _ _ _ _ _ _ _ _ _) as [[o s1]|u]; auto.
  - cbn [den]. destruct (nth_error (c_types c) ti) as [[? tn]|]; auto. rewrite den_bind.
    use tn offs true (set_end (set_js s (Some [])) None). rewrite Hd. destruct (rec tn offs true _) as [[ok s1]|u]; auto.
Qed.
Lemma try_clean rf p offs s : clean (tryParserP e msg recP rf p offs s).
Proof.
  unfold tryParserP. destruct (p_kind p) as [m|pn wn permit|ti].
  - destruct (Nat.ltb _ _); [exact I|]. destruct (run_motif _ _ _ _ _) as [[n v]| |]; exact I.
  - apply clean_bind; [apply repeat_clean|]. intros [? ?]. exact I.
  - cbn [clean]. intros n. apply clean_bind; [apply HR|]. intros [? ?]. exact I.
Qed.
Lemma try_log rf p offs s o s' : tryParser e c msg rec rf p offs s = EOk (o, s') ->
  r_log s' = rev (incs c (tryParserP e msg recP rf p offs s)) ++ r_log s.
Proof.
  unfold tryParserP, tryParser. destruct (p_kind p) as [m|pn wn permit|ti]; intros H.
  - destruct (Nat.ltb _ _); [discriminate|]. destruct (run_motif _ _ _ _ _) as [[n v]| |]; [| |discriminate]; injection H as <- <-; reflexivity.
  - rewrite incs_bind, repeat_den. destruct (repeat_loop _ _ _ _ _ _ _ _ _) as [[o1 s1]|u] eqn:E; cbn [ebind] in H; [|discriminate].
    injection H as <- <-. cbn [incs]. rewrite app_nil_r. cbn [set_end set_js set_pt r_log]. eapply repeat_log. exact E.
  - cbn [incs]. destruct (nth_error (c_types c) ti) as [[? tn]|]; [|discriminate]. rewrite incs_bind.
    use tn offs true (set_end (set_js s (Some [])) None). rewrite Hd. destruct (rec tn offs true _) as [[ok s1]|u]; cbn [ebind] in H; [|discriminate].
    injection H as <- <-. cbn [incs]. rewrite app_nil_r. cbn [set_end set_js set_pt r_log]. apply (Hl _ _ eq_refl).
Qed.

Lemma loop_den rf nd n : get_node (c_nodes c) nd = EOk n -> forall ps j offs partial lpt s, skipn j (n_parsers n) = ps ->
  den c (parser_loopP e msg recP rf nd (List.length ps) j offs partial lpt s) = parser_loop e c msg rec rf nd ps offs partial lpt s.
Proof.
  intros HN. induction ps as [|p ps IH]; intros j offs partial lpt s Hps; cbn [List.length parser_loopP parser_loop]; auto.
  cbn [den]. rewrite HN. unfold view_of at 1. cbn [v_parsers].
  assert (Hj : nth_error (n_parsers n) j = Some p) by (rewrite nth_error_skipn_hd, Hps; reflexivity).
  assert (Hs : skipn (S j) (n_parsers n) = ps).
  { eapply skipn_S_tl. exact Hps. }
  rewrite Hj, den_bind, try_den. destruct (tryParser e c msg rec rf p offs s) as [[[[pos v]|] s1]|u]; cbn [ebind]; auto.
  rewrite den_bind. use (p_child p) pos partial s1. rewrite Hd. destruct (rec (p_child p) pos partial s1) as [[ok s2]|u]; cbn [ebind]; auto.
  destruct ok.
  - rewrite den_bind, den_lift. destruct (fixJSON p v (r_js s2)); cbn [ebind]; auto.
  - cbn [den]. rewrite HN. apply IH. exact Hs.
Qed.
Lemma loop_clean rf nd : forall left j offs partial lpt s, clean (parser_loopP e msg recP rf nd left j offs partial lpt s).
Proof.
  induction left as [|left IH]; intros; cbn [parser_loopP]; [exact I|]. cbn [clean]. intros n. destruct (nth_error _ j); [|exact I].
  apply clean_bind; [apply try_clean|]. intros [[[pos v]|] s1]; [|apply IH]. apply clean_bind; [apply HR|]. intros [ok s2]. destruct ok.
  - apply clean_bind; [apply clean_lift|]. intros a. cbn. auto.
  - cbn [clean]. apply IH.
Qed.
Lemma loop_log rf nd n : get_node (c_nodes c) nd = EOk n -> forall ps j offs partial lpt s, skipn j (n_parsers n) = ps ->
  forall ok s', parser_loop e c msg rec rf nd ps offs partial lpt s = EOk (ok, s') ->
  r_log s' = rev (incs c (parser_loopP e msg recP rf nd (List.length ps) j offs partial lpt s)) ++ r_log s.
Proof.
  intros HN. induction ps as [|p ps IH]; intros j offs partial lpt s Hps ok s' H; cbn [List.length parser_loopP parser_loop] in *.
  { injection H as <- <-. reflexivity. }
  cbn [incs]. rewrite HN. unfold view_of at 1. cbn [v_parsers].
  assert (Hj : nth_error (n_parsers n) j = Some p) by (rewrite nth_error_skipn_hd, Hps; reflexivity).
  assert (Hs : skipn (S j) (n_parsers n) = ps).
  { eapply skipn_S_tl. exact Hps. }
  rewrite Hj, incs_bind, try_den.
  destruct (tryParser e c msg rec rf p offs s) as [[[[pos v]|] s1]|u] eqn:ET; cbn [ebind] in H; [| |discriminate].
  2:{ apply try_log in ET. specialize (IH _ _ _ _ _ Hs _ _ H). rewrite IH. cbn [set_pt r_log]. rewrite ET, rev_app_distr, app_assoc. reflexivity. }
  apply try_log in ET. rewrite incs_bind. use (p_child p) pos partial s1. rewrite Hd.
  destruct (rec (p_child p) pos partial s1) as [[ok2 s2]|u]; cbn [ebind] in H; [|discriminate]. specialize (Hl _ _ eq_refl).
  destruct ok2.
  - rewrite incs_bind, den_lift, incs_lift. destruct (fixJSON p v (r_js s2)) as [js|u]; cbn [ebind] in H; [|discriminate].
    cbn [incs app]. rewrite !app_nil_r. injection H as <- <-. cbn [set_pt r_log]. 
    replace (r_log (if opt_rule (c_opts c) then _ else _)) with (r_log s2) by (destruct (opt_rule (c_opts c)); reflexivity).
    rewrite Hl, ET, rev_app_distr, app_assoc. reflexivity.
  - cbn [incs]. rewrite HN. specialize (IH _ _ _ _ _ Hs _ _ H). rewrite IH. cbn [set_pt set_log r_log].
    rewrite Hl, ET. rewrite !rev_app_distr. cbn [rev]. rewrite <- !app_assoc. reflexivity.
Qed.
Lemma step_ok rf : recOK (fun nd o p s => norm_step e c msg rec rf nd o p s) (fun nd o p s => norm_stepP e msg recP rf nd o p s).
Proof.
  intros nd offs partial s. unfold norm_step, norm_stepP. split; [|split].
  - cbn [den]. destruct (get_node (c_nodes c) nd) as [n|u] eqn:HN; cbn [ebind]; auto. cbv zeta. rewrite den_bind.
    unfold view_of at 1. cbn [v_parsers]. rewrite (loop_den rf nd n HN) by reflexivity. destruct (parser_loop _ _ _ _ _ _ _ _ _ _ _) as [[ok s1]|u]; cbn [ebind]; auto.
    cbn [den]. rewrite HN. unfold view_of. cbn [v_term]. destruct (n_term n && _)%bool; auto.
  - cbn [clean]. intros n. apply clean_bind; [apply loop_clean|]. intros [ok s1]. cbn [clean]. intros n'. destruct (_ && _)%bool; exact I.
  - intros ok s' H. cbn [incs]. destruct (get_node (c_nodes c) nd) as [n|u] eqn:HN; cbn [ebind] in H; [|discriminate]. cbv zeta. rewrite incs_bind.
    unfold view_of at 1 2. cbn [v_parsers]. rewrite (loop_den rf nd n HN) by reflexivity.
    destruct (parser_loop _ _ _ _ _ _ _ _ _ _ _) as [[ok1 s1]|u] eqn:EL; cbn [ebind] in H; [|discriminate].
    assert (E1 : incs c (PRead nd (fun n0 => if (v_term n0 && (Nat.eqb offs (List.length msg) || partial))%bool then PRet (true, set_end s1 (Some nd)) else PRet (ok1, s1))) = []).
    { cbn [incs]. rewrite HN. destruct (_ && _)%bool; reflexivity. }
    rewrite E1, app_nil_r. eapply (loop_log rf nd n HN (n_parsers n) 0) in EL; [|reflexivity]. cbn [set_log r_log] in EL. cbn [rev]. rewrite <- app_assoc. cbn [app].
    destruct (_ && _)%bool; injection H as <- <-; exact EL.
Qed.
End Engine.

Lemma recP_ok e c msg : forall fuel, recOK c (normalizeRec e c msg fuel) (normalizeRecP e msg fuel).
Proof.
  induction fuel as [|f IH].
  - intros nd o p s. split; [reflexivity|]. split; [exact I|]. intros; discriminate.
  - intros nd o p s. cbn [normalizeRec normalizeRecP]. apply (step_ok e c msg _ _ IH f).
Qed.

(** The whole call. *)
Lemma metaP c n rule o : add_metadataP (c_opts c) (view_of n) rule o = add_metadata c n rule o.
Proof. reflexivity. Qed.
Lemma normalizeP_den e c msg fuel js0 : c_annots c = [] ->
  den c (normalizeP e msg fuel (c_root c) js0) = visible (normalize fuel e c msg js0).
Proof.
  intros HA. unfold normalizeP, normalize. rewrite den_bind. destruct (recP_ok e c msg fuel (c_root c) 0 false {| r_pt := 0; r_js := Some js0; r_end := None; r_rule := []; r_log := [] |}) as (Hd & _ & _).
  rewrite Hd. destruct (normalizeRec _ _ _ _ _ _ _ _) as [[ok s]|u]; cbn [ebind]; auto. destruct ok.
  - destruct (r_end s) as [en|]; auto. cbn [den]. destruct (get_node (c_nodes c) en) as [n|u]; cbn [ebind]; auto.
    rewrite den_bind, den_lift, metaP, HA. unfold view_of. cbn [v_tags]. 
    assert (E : match n_tags n with None => EOk (match r_js s with Some o => o | None => [] end) | Some tags => annotate [] tags (obj_add (match r_js s with Some o => o | None => [] end) (L "event.tags") tags) end
                = EOk (match n_tags n with None => match r_js s with Some o => o | None => [] end | Some tags => obj_add (match r_js s with Some o => o | None => [] end) (L "event.tags") tags end)) by (destruct (n_tags n); reflexivity).
    rewrite E. cbn [ebind]. destruct (add_metadata _ _ _ _); reflexivity.
  - destruct (Nat.ltb _ _); reflexivity.
Qed.
Lemma normalizeP_clean e (c : ctx) msg fuel js0 root : clean (normalizeP e msg fuel root js0).
Proof.
  unfold normalizeP. apply clean_bind; [apply (recP_ok e c msg fuel)|]. intros [ok s]. destruct ok.
  - destruct (r_end s) as [en|]; [|exact I]. cbn [clean]. intros n op. apply clean_bind; [apply clean_lift|]. intros; exact I.
  - destruct (Nat.ltb _ _); exact I.
Qed.
Lemma normalizeP_incs e c msg fuel js0 ok o c' : normalize fuel e c msg js0 = EOk (ok, o, c') ->
  c' = set_nodes c (fold_left inc1 (incs c (normalizeP e msg fuel (c_root c) js0)) (c_nodes c)).
Proof.
  unfold normalizeP, normalize. intros H. rewrite incs_bind. destruct (recP_ok e c msg fuel (c_root c) 0 false {| r_pt := 0; r_js := Some js0; r_end := None; r_rule := []; r_log := [] |}) as (Hd & _ & Hl).
  rewrite Hd. destruct (normalizeRec _ _ _ _ _ _ _ _) as [[ok1 s]|u]; cbn [ebind] in H; [|discriminate]. specialize (Hl _ _ eq_refl). cbn [r_log] in Hl. rewrite app_nil_r in Hl.
  match goal with |- _ = set_nodes c (fold_left inc1 (?l ++ ?r) _) => assert (Er : r = []) end.
  { destruct ok1.
    - destruct (r_end s) as [en|]; auto. cbn [incs]. destruct (get_node (c_nodes c) en) as [n|u]; auto. rewrite incs_bind, incs_lift. cbn [app]. match goal with |- [] = match ?d with _ => _ end => destruct d | |- match ?d with _ => _ end = [] => destruct d end; reflexivity.
    - destruct (Nat.ltb _ _); reflexivity. }
  rewrite Er, app_nil_r.
  assert (Ec : apply_log c (r_log s) = set_nodes c (fold_left inc1 (incs c (normalizeRecP e msg fuel (c_root c) 0 false {| r_pt := 0; r_js := Some js0; r_end := None; r_rule := []; r_log := [] |})) (c_nodes c))).
  { unfold apply_log. rewrite Hl, rev_involutive. reflexivity. }
  rewrite <- Ec. clear - H. destruct ok1.
  - destruct (r_end s) as [en|]; [|discriminate]. apply ebind_ok in H as (n & _ & H). apply ebind_ok in H as (o1 & _ & H). cbv zeta in H. apply ebind_ok in H as (o2 & _ & H). congruence.
  - destruct (Nat.ltb _ _); [discriminate|]. congruence.
Qed.

(** ** One after another *)
Lemma incs_same {A} c c' (p : prog A) : same_ctx c c' -> incs c p = incs c' p.
Proof.
  intros HS. induction p as [a|u|i k IH|ti k IH|k IH|i b k IH|i b v k IH]; cbn; auto.
  - pose proof (get_node_same c c' HS i) as Hn. destruct (get_node (c_nodes c) i), (get_node (c_nodes c') i); try tauto.
    rewrite (view_same _ _ Hn). auto.
  - destruct HS as (_ & _ & <- & _). destruct (nth_error (c_types c) ti) as [[? ?]|]; auto.
  - destruct HS as (_ & _ & _ & _ & _ & <- & _). auto.
  - pose proof (get_node_same c c' HS i) as Hn. destruct (get_node (c_nodes c) i), (get_node (c_nodes c') i); try tauto.
    rewrite IH. auto.
Qed.
Lemma history_incs fuel e c0 : forall ms c c', same_ctx c0 c -> history fuel e c ms = EOk c' ->
  c' = set_nodes c (fold_left inc1 (todo c0 (map (fun q => normalizeP e (fst q) fuel (c_root c0) (snd q)) ms)) (c_nodes c)).
Proof.
  induction ms as [|[m js] ms IH]; intros c c' HS H; cbn [history] in H.
  - injection H as <-. destruct c; reflexivity.
  - apply ebind_ok in H as ([[ok o] cx1] & H1 & H). cbv beta iota in H.
    assert (HS1 : same_ctx c cx1). { pose proof H1 as H2. apply normalize_inv in H2 as (s & _ & -> & _). apply apply_log_same. }
    apply IH in H; [|eapply same_ctx_trans; eauto]. apply normalizeP_incs in H1. rewrite H, H1. unfold todo. cbn [map List.concat fst snd].
    rewrite fold_left_app. rewrite (incs_same _ _ _ HS). replace (c_root c) with (c_root c0) by (destruct HS as (_ & -> & _); auto).
    reflexivity.
Qed.
Lemma history_runs fuel e : forall ms c, (forall m js, In (m, js) ms -> exists ok o c1, normalize fuel e c m js = EOk (ok, o, c1)) ->
  exists c', history fuel e c ms = EOk c'.
Proof.
  induction ms as [|[m js] ms IH]; intros c HA; cbn [history]; [eauto|].
  destruct (HA m js (or_introl eq_refl)) as (ok & o & c1 & E). rewrite E. cbn [ebind]. apply IH.
  assert (HS : same_ctx c c1). { pose proof E as H2. apply normalize_inv in H2 as (s & _ & -> & _). apply apply_log_same. }
  intros m' js' Hin. destruct (HA m' js' (or_intror Hin)) as (ok' & o' & c2 & E').
  pose proof (normalize_same e c c1 m' HS fuel js') as Hv. rewrite E' in Hv. cbn [visible] in Hv.
  destruct (normalize fuel e c1 m' js') as [[[? ?] ?]|u]; [eauto|discriminate].
Qed.
