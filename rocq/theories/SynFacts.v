(** * SynFacts: the functions reading rule texts accept the syntax of SynSpec.v. *)
From Verif Require Import Base BaseFacts Parsers Engine Pdag Samp RuleSpec SynSpec FieldFacts DateFacts FieldFacts6 FieldFacts10.

(** ** Literal text *)
Lemma spelled_part w l : spelled w l -> forall r, r = [] \/ (exists c u, r = "%"%char :: c :: u /\ c <> "%"%char) -> literal_part (w ++ r) = (l, r).
Proof.
  induction 1 as [|c w t Hc H IH|w t H IH]; intros r Hr.
  - destruct Hr as [->|(c & u & -> & Hc)]; [reflexivity|]. cbn. destruct (ceq c "%") eqn:E; [apply ceq_true in E; congruence|reflexivity].
  - cbn [app literal_part]. destruct (ceq c "%") eqn:E; [apply ceq_true in E; congruence|]. rewrite (IH r Hr). reflexivity.
  - cbn [app literal_part]. change (ceq "%" "%") with true. cbv iota. rewrite (IH r Hr). reflexivity.
Qed.
Lemma spelled_part_pct w l : spelled w l -> literal_part (w ++ ["%"%char]) = (l, []).
Proof.
  induction 1 as [|c w t Hc H IH|w t H IH].
  - reflexivity.
  - cbn [app literal_part]. destruct (ceq c "%") eqn:E; [apply ceq_true in E; congruence|]. rewrite IH. reflexivity.
  - cbn [app literal_part]. change (ceq "%" "%") with true. cbv iota. rewrite IH. reflexivity.
Qed.
Lemma part_spelled : forall n u l r, List.length u <= n -> literal_part u = (l, r) ->
  exists w, spelled w l /\ ((u = w /\ r = []) \/ (u = w ++ ["%"%char] /\ r = []) \/ exists c v, r = "%"%char :: c :: v /\ c <> "%"%char /\ u = w ++ r).
Proof.
  induction n as [|n IH]; intros u l r Hn E.
  - destruct u; [|cbn in Hn; lia]. injection E as <- <-. exists []. split; [constructor|auto].
  - destruct u as [|c u]; [injection E as <- <-; exists []; split; [constructor|auto]|].
    cbn [literal_part] in E. cbn in Hn. destruct (ceq c "%") eqn:Ec.
    + apply ceq_true in Ec as ->. destruct u as [|d u]; [injection E as <- <-; exists []; split; [constructor|auto]|].
      cbn in Hn. destruct (ceq d "%") eqn:Ed.
      * apply ceq_true in Ed as ->. destruct (literal_part u) as [l1 r1] eqn:E1. injection E as <- <-.
        destruct (IH u l1 r1 ltac:(lia) E1) as (w & Hw & HC). exists ("%"%char :: "%"%char :: w). split; [apply sp_pct; auto|].
        destruct HC as [[-> ->]|[[-> ->]|(c & v & -> & Hc & ->)]]; [left; split; reflexivity|right; left; split; reflexivity|right; right; exists c, v; auto].
      * injection E as <- <-. exists []. split; [constructor|]. right; right. exists d, u. split; [reflexivity|]. split; [|reflexivity].
        intros ->. rewrite ceq_refl in Ed. discriminate.
    + destruct (literal_part u) as [l1 r1] eqn:E1. injection E as <- <-. destruct (IH u l1 r1 ltac:(lia) E1) as (w & Hw & HC). exists (c :: w). split.
      { constructor; auto. intros ->. rewrite ceq_refl in Ec. discriminate. }
      destruct HC as [[-> ->]|[[-> ->]|(c' & v & -> & Hc & ->)]]; [left; auto|right; left; auto|right; right; exists c', v; auto].
Qed.

(** ** Splitting *)
Lemma scan_split P (u : text) : exists a b, u = a ++ b /\ Forall (fun c => P c = true) a /\ (forall c r, b = c :: r -> P c = false) /\ scan P u = List.length a.
Proof.
  induction u as [|c u IH].
  - exists [], []. repeat split; auto. discriminate.
  - cbn [scan]. destruct (P c) eqn:E.
    + destruct IH as (a & b & -> & H1 & H2 & H3). exists (c :: a), b. repeat split; auto. cbn. lia.
    + exists [], (c :: u). repeat split; auto. intros ? ? [= <- _]. exact E.
Qed.
Lemma app_firstn (a b : text) n : n = List.length a -> firstn n (a ++ b) = a.
Proof. intros ->. apply firstn_app_exact. Qed.
Lemma app_skipn (a b : text) n : n = List.length a -> skipn n (a ++ b) = b.
Proof. intros ->. apply skipn_app_exact. Qed.
Lemma skipn_len {A} (u : list A) n v : skipn n u = v -> n <= List.length u -> u = firstn n u ++ v /\ List.length (firstn n u) = n.
Proof. intros <- H. split; [symmetry; apply firstn_skipn|apply firstn_length_le; exact H]. Qed.
Lemma free_one c u : free_of [c] u <-> Forall (fun x => negb (ceq x c) = true) u.
Proof.
  unfold free_of. rewrite Forall_forall. split; intros H x Hx.
  - specialize (H x Hx). destruct (ceq x c) eqn:E; auto. apply ceq_true in E as ->. exfalso. apply H. left; auto.
  - intros [<-|[]]. specialize (H c Hx). rewrite ceq_refl in H. discriminate.
Qed.
Lemma free_three u : free_of (L ":{%") u <-> Forall (fun x => negb (ceq x ":" || ceq x "{" || ceq x "%") = true) u.
Proof.
  unfold free_of. rewrite Forall_forall. split; intros H x Hx; specialize (H x Hx).
  - destruct (ceq x ":") eqn:E1; [apply ceq_true in E1 as ->; exfalso; apply H; cbn; auto|].
    destruct (ceq x "{") eqn:E2; [apply ceq_true in E2 as ->; exfalso; apply H; cbn; auto|].
    destruct (ceq x "%") eqn:E3; [apply ceq_true in E3 as ->; exfalso; apply H; cbn; auto|]. reflexivity.
  - intros [<-|[<-|[<-|[]]]]; discriminate H.
Qed.
Lemma in_three c : In c (L ":{%") <-> negb (ceq c ":" || ceq c "{" || ceq c "%") = false.
Proof.
  split.
  - intros [<-|[<-|[<-|[]]]]; reflexivity.
  - destruct (ceq c ":") eqn:E1; [apply ceq_true in E1 as ->; cbn; auto|].
    destruct (ceq c "{") eqn:E2; [apply ceq_true in E2 as ->; cbn; auto|].
    destruct (ceq c "%") eqn:E3; [apply ceq_true in E3 as ->; cbn; auto|]. discriminate.
Qed.

(** ** Trimming *)
Lemma rtrim_blank b : blank b -> rtrim b = [].
Proof. induction 1 as [|c b Hc H IH]; [reflexivity|]. cbn [rtrim]. rewrite IH, Hc. reflexivity. Qed.
Lemma rtrim_app t b : blank b -> no_blank_end t -> rtrim (t ++ b) = t.
Proof.
  intros Hb. induction t as [|c t IH]; intros H.
  - apply rtrim_blank; exact Hb.
  - cbn [app rtrim]. destruct t as [|d t].
    + cbn [app]. rewrite (rtrim_blank b Hb). rewrite (H [] c eq_refl). reflexivity.
    + rewrite IH; [reflexivity|]. intros s x E. apply (H (c :: s) x). rewrite E. reflexivity.
Qed.
Lemma rtrim_split u : exists b, u = rtrim u ++ b /\ blank b /\ no_blank_end (rtrim u).
Proof.
  induction u as [|c u (b & E & Hb & Hn)].
  - exists []. repeat split; [constructor|]. intros [|? ?] ? ?; discriminate.
  - cbn [rtrim]. destruct (rtrim u) as [|d r] eqn:Er.
    + cbn [app] in E. subst b. destruct (isspace c) eqn:Ec.
      * exists (c :: u). repeat split; [constructor; auto|]. intros [|? ?] ? ?; discriminate.
      * exists u. repeat split; auto. intros [|? s] x EE; [injection EE as ->; exact Ec|]. injection EE as _ EE. destruct s; discriminate.
    + exists b. split; [cbn; f_equal; exact E|]. split; auto. intros [|? s] x EE; [discriminate|]. injection EE as _ EE. apply (Hn s x). exact EE.
Qed.
Lemma trim_unique t b t' b' : t ++ b = t' ++ b' -> blank b -> blank b' -> no_blank_end t -> no_blank_end t' -> t = t' /\ b = b'.
Proof.
  intros E Hb Hb' Ht Ht'. assert (t = t') as <-.
  { rewrite <- (rtrim_app t b Hb Ht), <- (rtrim_app t' b' Hb' Ht'), E. reflexivity. }
  split; auto. apply app_inv_head in E. exact E.
Qed.

(** ** Objects *)
Lemma put_is_add l k v : put l k v = obj_add l k v.
Proof. induction l as [|[k' v'] l IH]; [reflexivity|]. cbn. rewrite IH. reflexivity. Qed.
Lemma put_all_fold ms : forall l, put_all l ms = fold_left (fun o kv => obj_add o (fst kv) (snd kv)) ms l.
Proof. induction ms as [|[k v] ms IH]; intros l; [reflexivity|]. cbn [put_all fold_left fst snd]. rewrite IH, put_is_add. reflexivity. Qed.
Lemma extra_cstr e x : cstr (nul_blank (unescape e x)) = extra e x.
Proof.
  apply cstr_id. unfold extra. rewrite in_map_iff. intros (c & E & _). destruct (ceq c NUL) eqn:Ec; [discriminate|].
  subst c. rewrite ceq_refl in Ec. discriminate.
Qed.

(** ** What follows the type *)
Definition data_read (e : env) (u : text) : res (text * option text) :=
  match u with
  | [] => Ub UninitRead
  | c :: u' => if ceq c "%" then Ok (u', None)
               else let k := scan (fun c => negb (ceq c "%")) u' in Ok (skipn (S k) u', Some (firstn k u'))
  end.
Lemma data_read_ok e u rest x : data_read e u = Ok (rest, x) <-> data_tail u rest x.
Proof.
  split.
  - destruct u as [|c u]; [discriminate|]. cbn [data_read]. destruct (ceq c "%") eqn:Ec.
    + apply ceq_true in Ec as ->. intros [= <- <-]. constructor.
    + assert (Hc : c <> "%"%char) by (intros ->; rewrite ceq_refl in Ec; discriminate).
      destruct (scan_split (fun c => negb (ceq c "%")) u) as (a & b & -> & Ha & Hb & Hs). rewrite Hs.
      apply free_one in Ha. destruct b as [|d b].
      * rewrite app_nil_r, firstn_all. rewrite skipn_all2 by lia. intros [= <- <-]. apply dt_open; auto.
      * rewrite firstn_app_exact. replace (a ++ d :: b) with ((a ++ [d]) ++ b) by (rewrite <- app_assoc; reflexivity).
        rewrite app_skipn by (rewrite app_length; cbn; lia). intros [= <- <-]. specialize (Hb d b eq_refl). apply negb_false_iff in Hb. apply ceq_true in Hb as ->.
        rewrite <- app_assoc. apply dt_extra; auto.
  - intros H. inversion H; subst; cbn [data_read]; [reflexivity| |].
    + destruct (ceq c "%") eqn:Ec; [apply ceq_true in Ec; congruence|]. match goal with HF : free_of _ _ |- _ => apply free_one in HF end.
      rewrite scan_run by (auto; intros ? ? [= <- _]; reflexivity). cbv zeta. rewrite firstn_app_exact.
      replace (x0 ++ "%"%char :: rest) with ((x0 ++ ["%"%char]) ++ rest) by (rewrite <- app_assoc; reflexivity).
      rewrite app_skipn by (rewrite app_length; cbn; lia). reflexivity.
    + destruct (ceq c "%") eqn:Ec; [apply ceq_true in Ec; congruence|]. match goal with HF : free_of _ _ |- _ => apply free_one in HF end.
      rewrite scan_all by auto. cbv zeta. rewrite firstn_all, skipn_all2 by lia. reflexivity.
Qed.

Definition param_read (e : env) (u : text) : res (text * option json * option text) :=
  match u with
  | [] => Bad 0
  | c :: _ =>
      let '(js, u) :=
        if ceq c "{" then
          match json_tok e u with
          | Some (j, k) => (Some j, skipn k u)
          | None => (None, skipn (json_erroff e u) u)
          end
        else (None, u) in
      let* (rest, x) := data_read e u in Ok (rest, js, x)
  end.
Lemma data_nonempty e u rest x k : data_read e (skipn k u) = Ok (rest, x) -> k < List.length u.
Proof. intros H. destruct (Nat.leb_spec (List.length u) k); auto. rewrite skipn_all2 in H by lia. discriminate. Qed.
Lemma param_read_ok e u rest j x : param_read e u = Ok (rest, j, x) <-> param_tail e u rest j x.
Proof.
  split.
  - destruct u as [|c u]; [discriminate|]. cbn [param_read]. destruct (ceq c "{") eqn:Ec.
    + apply ceq_true in Ec as ->. set (t := "{"%char :: u).
      destruct (json_tok e t) as [[j' k]|] eqn:Et; intros H; apply bind_ok in H as ([rest' x'] & Hd & [= <- <- <-]).
      * pose proof (data_nonempty _ _ _ _ _ Hd) as Hk. apply data_read_ok in Hd.
        destruct (skipn_len t k _ eq_refl ltac:(lia)) as [E1 E2]. rewrite E1. eapply pt_json.
        { exists u. symmetry; exact E1. } { rewrite <- E1, Et. rewrite E2. reflexivity. } exact Hd.
      * pose proof (data_nonempty _ _ _ _ _ Hd) as Hk. apply data_read_ok in Hd.
        destruct (skipn_len t (json_erroff e t) _ eq_refl ltac:(lia)) as [E1 E2]. rewrite E1. eapply pt_broken.
        { exists u. symmetry; exact E1. } { rewrite <- E1. exact Et. } { rewrite <- E1. auto. } exact Hd.
    + intros H. apply bind_ok in H as ([rest' x'] & Hd & [= <- <- <-]). apply data_read_ok in Hd. apply pt_plain; auto.
      intros w' [= -> _]. rewrite ceq_refl in Ec. discriminate.
  - intros H. destruct H as [w rest x Hw Hd|p w rest j x (w' & Hw) Ht Hd|p w rest x (w' & Hw) Ht He Hd].
    + apply (data_read_ok e) in Hd. destruct w as [|c w]; [discriminate|]. cbn [param_read]. destruct (ceq c "{") eqn:Ec; [apply ceq_true in Ec as ->; exfalso; eapply Hw; reflexivity|].
      rewrite Hd. reflexivity.
    + apply (data_read_ok e) in Hd. unfold param_read. rewrite Hw at 1. cbv iota beta. change (ceq "{" "{") with true. cbv iota. rewrite Ht. rewrite skipn_app_exact, Hd. reflexivity.
    + apply (data_read_ok e) in Hd. unfold param_read. rewrite Hw at 1. cbv iota beta. change (ceq "{" "{") with true. cbv iota. rewrite Ht, He. rewrite skipn_app_exact, Hd. reflexivity.
Qed.

Definition legacy_conf (e : env) (name typ : text) (j : option json) (x : option text) : json :=
  JObj (put_all (match x with Some x => with_extra e (base name typ) x | None => base name typ end) (match j with Some (JObj ms) => ms | _ => [] end)).
Lemma legacy_eq e u : parseLegacyFieldDescr e u =
  (let n := scan (fun c => negb (ceq c ":")) u in
   check (negb (N.leb 1023 (N.of_nat n))) ;; check (negb (Nat.eqb n (List.length u))) ;; check (negb (Nat.eqb n 0)) ;;
   let name := firstn n u in let u := skipn (S n) u in
   let j := scan (fun c => negb (ceq c ":" || ceq c "{" || ceq c "%")) u in
   let* (rest, js, x) := param_read e (skipn j u) in Ok (rest, legacy_conf e name (rtrim (firstn j u)) js x)).
Proof.
  unfold parseLegacyFieldDescr. cbv zeta. set (n := scan _ u). destruct (negb (1023 <=? _)%N); [|reflexivity].
  destruct (negb (Nat.eqb n (List.length u))); [|reflexivity]. destruct (negb (Nat.eqb n 0)); [|reflexivity].
  set (v := skipn (S n) u). set (j := scan _ v). destruct (skipn j v) as [|c w] eqn:Ew; [reflexivity|]. cbn [param_read].
  assert (HK : forall js q, match q with
    | [] => Ub UninitRead
    | c :: u' => let '(ed, u0) := if ceq c "%" then (None, u') else (Some (unescape e (firstn (scan (fun c0 => negb (ceq c0 "%")) u') u')), skipn (S (scan (fun c0 => negb (ceq c0 "%")) u')) u') in
        Ok (u0, JObj match js with
                     | Some (JObj l) => fold_left (fun o kv => obj_add o (fst kv) (snd kv)) l (match ed with Some x => obj_add (str_obj [("name"%string, cstr (firstn n u)); ("type"%string, drop_nul (rtrim (firstn j v)))]) (L "extradata") (JStr (cstr (nul_blank x))) | None => str_obj [("name"%string, cstr (firstn n u)); ("type"%string, drop_nul (rtrim (firstn j v)))] end)
                     | _ => match ed with Some x => obj_add (str_obj [("name"%string, cstr (firstn n u)); ("type"%string, drop_nul (rtrim (firstn j v)))]) (L "extradata") (JStr (cstr (nul_blank x))) | None => str_obj [("name"%string, cstr (firstn n u)); ("type"%string, drop_nul (rtrim (firstn j v)))] end
                     end)
    end = (let* (rest, x) := data_read e q in Ok (rest, legacy_conf e (firstn n u) (rtrim (firstn j v)) js x))).
  { intros js [|d q]; [reflexivity|]. cbn [data_read]. destruct (ceq d "%").
    - cbn [bind]. unfold legacy_conf, base. destruct js as [[| | | | | |ms]|]; try reflexivity. rewrite put_all_fold. reflexivity.
    - cbv zeta. cbn [bind]. unfold legacy_conf, base, with_extra. rewrite extra_cstr. destruct js as [[| | | | | |ms]|]; try reflexivity. rewrite put_all_fold. reflexivity. }
  destruct (ceq c "{").
  - destruct (json_tok e (c :: w)) as [[js k]|].
    + etransitivity; [exact (HK (Some js) (skipn k (c :: w)))|]. destruct (data_read _ _) as [[r x]| |]; reflexivity.
    + etransitivity; [exact (HK None (skipn (json_erroff e (c :: w)) (c :: w)))|]. destruct (data_read _ _) as [[r x]| |]; reflexivity.
  - etransitivity; [exact (HK None (c :: w))|]. destruct (data_read _ _) as [[r x]| |]; reflexivity.
Qed.

Definition starts_field (u : text) : Prop := match u with [] => False | c :: _ => isspace c = false /\ c <> "{"%char /\ c <> "["%char end.
Lemma legacy_ok e u rest conf : parseLegacyFieldDescr e u = Ok (rest, conf) <->
  exists name typ sp' w j x, u = name ++ ":"%char :: typ ++ sp' ++ w /\ name <> [] /\ free_of (L ":") name /\ (N.of_nat (List.length name) < 1023)%N /\
    free_of (L ":{%") (typ ++ sp') /\ blank sp' /\ no_blank_end typ /\ param_tail e w rest j x /\ (exists c w', w = c :: w' /\ In c (L ":{%")) /\
    conf = legacy_conf e name typ j x.
Proof.
  rewrite legacy_eq. cbv zeta. split.
  - destruct (scan_split (fun c => negb (ceq c ":")) u) as (name & b & -> & Ha & Hb & Hs). rewrite Hs. rewrite firstn_app_exact.
    destruct (N.leb_spec 1023 (N.of_nat (List.length name))) as [|HL]; [discriminate|]. cbn [negb].
    destruct (Nat.eqb_spec (List.length name) (List.length (name ++ b))) as [|HN]; [discriminate|]. cbn [negb].
    destruct (Nat.eqb_spec (List.length name) 0) as [|HZ]; [discriminate|]. cbn [negb].
    destruct b as [|d b]; [rewrite app_nil_r in HN; congruence|]. specialize (Hb d b eq_refl). apply negb_false_iff in Hb. apply ceq_true in Hb as ->.
    replace (name ++ ":"%char :: b) with ((name ++ [":"%char]) ++ b) by (rewrite <- app_assoc; reflexivity). rewrite app_skipn by (rewrite app_length; cbn; lia).
    destruct (scan_split (fun c => negb (ceq c ":" || ceq c "{" || ceq c "%")) b) as (ty & w & -> & Hty & Hw & Hs2). rewrite Hs2. rewrite firstn_app_exact, skipn_app_exact.
    intros H. apply bind_ok in H as ([[rest' j] x] & Hp & [= <- <-]). pose proof Hp as Hp'. apply param_read_ok in Hp.
    destruct (rtrim_split ty) as (sp' & E & Hsp & Hne). apply free_one in Ha. apply free_three in Hty.
    exists name, (rtrim ty), sp', w, j, x. split. { rewrite <- app_assoc. cbn [app]. rewrite app_assoc, <- E. reflexivity. }
    split. { intros ->. cbn in HZ. lia. } split; [exact Ha|]. split; [exact HL|]. split; [rewrite <- E; exact Hty|]. split; [exact Hsp|]. split; [exact Hne|]. split; [exact Hp|].
    split; [|reflexivity]. destruct w as [|c w]; [discriminate Hp'|]. exists c, w. split; auto. apply in_three. eapply Hw. reflexivity.
  - intros (name & typ & sp' & w & j & x & -> & HN & Ha & HL & Hty & Hsp & Hne & Hp & (c & w' & -> & Hc) & ->).
    apply free_one in Ha. apply in_three in Hc. apply free_three in Hty.
    rewrite scan_run by (auto; intros ? ? [= <- _]; reflexivity). rewrite firstn_app_exact.
    destruct (N.leb_spec 1023 (N.of_nat (List.length name))) as [|_]; [lia|]. cbn [negb].
    destruct (Nat.eqb_spec (List.length name) (List.length (name ++ ":"%char :: typ ++ sp' ++ c :: w'))) as [HE|_]; [rewrite app_length in HE; cbn in HE; lia|]. cbn [negb].
    destruct (Nat.eqb_spec (List.length name) 0) as [HE|_]; [destruct name; [congruence|discriminate]|]. cbn [negb].
    replace (name ++ ":"%char :: typ ++ sp' ++ c :: w') with ((name ++ [":"%char]) ++ typ ++ sp' ++ c :: w') by (rewrite <- app_assoc; reflexivity). rewrite app_skipn by (rewrite app_length; cbn; lia).
    rewrite app_assoc. rewrite scan_run by (auto; intros ? ? [= <- _]; exact Hc). rewrite firstn_app_exact, skipn_app_exact. apply param_read_ok in Hp. rewrite Hp. cbn [bind].
    rewrite rtrim_app by auto. reflexivity.
Qed.

Theorem fieldDescr_ok e u rest conf : fieldDescr e ("%"%char :: u) = Ok (rest, conf) <-> described e u rest conf.
Proof.
  unfold fieldDescr. cbn [skipn]. destruct (scan_split isspace u) as (sp & b & -> & Hsp & Hb & Hs). split.
  - rewrite Hs, skipn_app_exact. destruct b as [|c b]; [discriminate|]. specialize (Hb c b eq_refl).
    destruct (ceq c "{" || ceq c "[")%bool eqn:Ec.
    + set (t := c :: b). intros H. assert (HH : exists j k, json_tok e t = Some (j, k) /\ j <> JNull /\ match skipn k t with d :: u' => if ceq d "%" then Ok (u', j) else Bad 0 | [] => Bad 0 end = Ok (rest, conf)).
      { destruct (json_tok e t) as [[[| | | | | |] k]|]; try discriminate; eexists _, k; (split; [reflexivity|split; [discriminate|exact H]]). }
      clear H. destruct HH as (j & k & Et & Hj & H). destruct (skipn k t) as [|d v] eqn:Ek; [discriminate|]. destruct (ceq d "%") eqn:Ed; [|discriminate]. injection H as <- <-. apply ceq_true in Ed as ->.
      assert (Hk : k < List.length t). { destruct (Nat.leb_spec (List.length t) k); auto. rewrite skipn_all2 in Ek by lia. discriminate. }
      destruct (skipn_len t k _ Ek ltac:(lia)) as [E1 E2].
      change (sp ++ c :: b) with (sp ++ t). rewrite E1. apply de_json; auto.
      * destruct k as [|k]. { exfalso. cbn [skipn] in Ek. injection Ek as -> _. discriminate Ec. }
        unfold t. cbn [firstn]. eexists. apply orb_true_iff in Ec as [Ec|Ec]; apply ceq_true in Ec as ->; [left|right]; reflexivity.
      * rewrite <- E1, E2. exact Et.
    + intros H. apply legacy_ok in H as (name & typ & sp' & w & j & x & E & HN & Ha & HL & Hty & Hsp' & Hne & Hp & Hw & ->). rewrite E. apply de_field; auto.
      destruct name as [|d name]; [congruence|]. injection E as -> E. exists d, name. split; [reflexivity|]. split; [exact Hb|].
      apply orb_false_iff in Ec as [E1 E2]. split; intros ->; discriminate.
  - intros H. remember (sp ++ b) as U eqn:EU. destruct H as [sp1 t rest conf Hsp1 (t' & Ht) Htok Hj|sp1 name typ sp' w rest j x Hsp1 (c & name' & -> & Hc & Hc1 & Hc2) Ha HL Hty Hsp' Hne Hp Hw].
    + assert (Hns : forall c r, t ++ "%"%char :: rest = c :: r -> isspace c = false) by (destruct Ht as [-> | ->]; intros ? ? [= <- _]; reflexivity).
      rewrite (scan_run isspace sp1) by auto. rewrite skipn_app_exact. destruct Ht as [Ht|Ht]; rewrite Ht at 1; cbn [app]; [change (ceq "{" "{") with true|change (ceq "[" "{" || ceq "[" "[")%bool with true]; cbn [orb];
      change (t' ++ "%"%char :: rest) with (t' ++ "%"%char :: rest); rewrite Htok; destruct conf; try congruence; rewrite skipn_app_exact; reflexivity.
    + rewrite (scan_run isspace sp1) by (auto; intros ? ? [= <- _]; exact Hc). rewrite skipn_app_exact. cbn [app].
      destruct (ceq c "{") eqn:E1; [apply ceq_true in E1; congruence|]. destruct (ceq c "[") eqn:E2; [apply ceq_true in E2; congruence|]. cbn [orb].
      apply legacy_ok. exists (c :: name'), typ, sp', w, j, x. split; [reflexivity|]. split; [discriminate|]. auto 10.
Qed.

Lemma literals_same e l : literals e l = literal_fields e l.
Proof.
  unfold literals, literal_fields. rewrite cstr_id; [reflexivity|]. unfold drop_nul. rewrite filter_In. intros [_ H]. rewrite ceq_refl in H. discriminate.
Qed.
Theorem rule_confs_text e t cs : rule_confs e t cs <-> rule_text e t cs.
Proof.
  split.
  - induction 1 as [|rule lit Hn Hl|rule lit rest rest' conf cs Hl Hr Hd Hc IH].
    + constructor.
    + rewrite literals_same. destruct (part_spelled _ _ _ _ (le_n _) Hl) as (w & Hw & [[-> _]|[[-> _]|(c & v & E & _)]]); [apply rt_last; auto|apply rt_pct; auto|discriminate].
    + rewrite literals_same. destruct (part_spelled _ _ _ _ (le_n _) Hl) as (w & Hw & [[_ ->]|[[_ ->]|(c & v & -> & Hv & ->)]]); try congruence.
      apply fieldDescr_ok in Hd. eapply rt_field; eauto.
  - induction 1 as [|w l Hn Hw|w l Hw|w l u rest conf cs Hw (c & u' & -> & Hc) Hd Hr IH].
    + constructor.
    + rewrite <- literals_same. apply rc_last; auto. pose proof (spelled_part w l Hw [] (or_introl eq_refl)) as H. rewrite app_nil_r in H. exact H.
    + rewrite <- literals_same. apply rc_last; [destruct w; discriminate|]. apply spelled_part_pct; exact Hw.
    + rewrite <- literals_same. apply fieldDescr_ok in Hd. eapply rc_field; [apply (spelled_part w l Hw); right; eauto|discriminate|exact Hd|exact IH].
Qed.
