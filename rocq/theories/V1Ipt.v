(** * V1Ipt: the iptables loop of the v1 matcher gives the pairs of [ipt_pairs]. *)
From Verif Require Import Base BaseFacts Parsers FieldFacts Engine V1 V1Spec.

Fixpoint ipt_list (fuel : nat) (u : text) : list (text * json) :=
  match fuel with
  | O => []
  | S f =>
      match u with
      | [] => []
      | _ =>
          let u := skipn (scan isspace u) u in
          let n := scan (fun c => negb (isspace c || ceq c "=")) u in
          let name := firstn n u in
          match skipn n u with
          | c :: v =>
              if ceq c "=" then
                let m := scan (fun c => negb (isspace c)) v in
                (cstr name, JStr (cstr (firstn m v))) :: ipt_list f (skipn m v)
              else (cstr name, JStr (L "[*PRESENT*]")) :: ipt_list f (c :: v)
          | [] => [(cstr name, JStr (L "[*PRESENT*]"))]
          end
      end
  end.
Lemma v1_ipt_list : forall fuel u js, v1_ipt fuel u js = fold_left (fun o m => obj_add o (fst m) (snd m)) (ipt_list fuel u) js.
Proof.
  induction fuel as [|f IH]; intros u js; [reflexivity|]. cbn [v1_ipt ipt_list]. destruct u as [|c0 u0]; [reflexivity|]. cbv zeta.
  destruct (skipn _ (skipn _ _)) as [|c v]; [reflexivity|]. destruct (ceq c "="); cbn [fold_left fst snd]; apply IH.
Qed.

Lemma scan_split p u : u = firstn (scan p u) u ++ skipn (scan p u) u /\ Forall (fun c => p c = true) (firstn (scan p u) u) /\
  (skipn (scan p u) u = [] \/ exists c r, skipn (scan p u) u = c :: r /\ p c = false).
Proof.
  split; [symmetry; apply firstn_skipn|]. induction u as [|c u (IH1 & IH2)]; cbn [scan]; [cbn; auto|]. destruct (p c) eqn:E; cbn [firstn skipn].
  - split; [constructor; auto|exact IH2].
  - split; [constructor|]. right. eauto.
Qed.
Lemma scan_app p a u : Forall (fun c => p c = true) a -> (u = [] \/ exists c r, u = c :: r /\ p c = false) ->
  scan p (a ++ u) = List.length a.
Proof.
  induction 1 as [|c a Hc Ha IH]; intros HU; cbn [app scan List.length].
  - destruct HU as [->|(c & r & -> & E)]; cbn [scan]; [|rewrite E]; reflexivity.
  - rewrite Hc, IH; auto.
Qed.
Definition namec (c : ascii) : bool := negb (isspace c || ceq c "=").
Lemma namec_iff c : namec c = true <-> isspace c = false /\ c <> "="%char.
Proof.
  unfold namec. destruct (isspace c); cbn [orb negb]; [split; [discriminate|intros [H _]; discriminate]|].
  destruct (ceq c "=") eqn:E; cbn [negb]; [apply ceq_true in E; split; [discriminate|tauto]|apply ceq_false in E; tauto].
Qed.
Lemma names k : Forall (fun c => namec c = true) k <-> Forall (fun c => isspace c = false /\ c <> "="%char) k.
Proof. split; apply Forall_impl; intros c; apply namec_iff. Qed.

Theorem ipt_list_ok : forall fuel u, List.length u < fuel -> ipt_pairs u (ipt_list fuel u).
Proof.
  induction fuel as [|f IH]; intros u HL; [lia|]. cbn [ipt_list]. destruct u as [|c0 u0] eqn:EU; [constructor|]. rewrite <- EU in *. assert (HU : u <> []) by congruence. clear c0 u0 EU. cbv zeta.
  destruct (scan_split isspace u) as (E1 & F1 & D1). set (b := firstn (scan isspace u) u) in *. set (w := skipn (scan isspace u) u) in *. clearbody b w.
  fold namec. destruct (scan_split namec w) as (E2 & F2 & D2). change (fun c => negb (isspace c || ceq c "=")) with namec. set (k := firstn (scan namec w) w) in *. set (x := skipn (scan namec w) w) in *. clearbody k x.
  apply names in F2. subst w u. rewrite app_length in HL. rewrite app_length in HL. destruct x as [|c v].
  - apply (ip_present b k [] []); auto; [rewrite app_nil_r in HU; exact HU|left; reflexivity|constructor].
  - destruct D2 as [D2|(c1 & r & D2 & Dn)]; [discriminate|]. injection D2 as <- <-. cbn [List.length] in HL. destruct (ceq c "=") eqn:EC.
    + apply ceq_true in EC. subst c. destruct (scan_split (fun c => negb (isspace c)) v) as (E3 & F3 & D3).
      set (val := firstn (scan (fun c => negb (isspace c)) v) v) in *. set (u := skipn (scan (fun c => negb (isspace c)) v) v) in *. clearbody val u. subst v. rewrite app_length in HL.
      apply ip_value; auto; [eapply Forall_impl; [|exact F3]; intros c HC; cbv beta in HC; destruct (isspace c); [discriminate HC|reflexivity]| |apply IH; lia].
      destruct D3 as [->|(c & r & -> & Hc)]; [left; reflexivity|right; exists c, r; split; auto; destruct (isspace c); [reflexivity|discriminate]].
    + assert (HS : isspace c = true). { apply ceq_false in EC. destruct (isspace c) eqn:E; [reflexivity|]. assert (namec c = true) by (apply namec_iff; auto). congruence. }
      assert (HK : k <> []). { intros ->. cbn [app] in D1. destruct D1 as [D1|(c1 & r & D1 & X)]; [discriminate|]. injection D1 as <- <-. congruence. }
      apply (ip_present b k (c :: v)); auto; [destruct b; [exact HK|discriminate]|right; eauto|congruence|apply IH]. destruct k; [congruence|]. cbn [List.length] in *. lia.
Qed.
Theorem ipt_pairs_list u kvs : ipt_pairs u kvs -> forall fuel, List.length u < fuel -> ipt_list fuel u = kvs.
Proof.
  assert (HB : forall b, Forall (fun c => isspace c = true) b -> forall y, (y = [] \/ exists c r, y = c :: r /\ isspace c = false) -> skipn (scan isspace (b ++ y)) (b ++ y) = y).
  { intros b Hb y Hy. rewrite scan_app by auto. rewrite skipn_app, skipn_all, Nat.sub_diag. reflexivity. }
  assert (HN : forall k y, Forall (fun c => isspace c = false /\ c <> "="%char) k -> (y = [] \/ exists c r, y = c :: r /\ namec c = false) -> scan namec (k ++ y) = List.length k).
  { intros k y Hk Hy. apply scan_app; [apply names; exact Hk|exact Hy]. }
  assert (FA : forall (a y : text), firstn (List.length a) (a ++ y) = a) by (intros; rewrite firstn_app, firstn_all, Nat.sub_diag; cbn; apply app_nil_r).
  assert (SA : forall (a y : text), skipn (List.length a) (a ++ y) = y) by (intros; rewrite skipn_app, skipn_all, Nat.sub_diag; reflexivity).
  assert (HH : forall k y, Forall (fun c => isspace c = false /\ c <> "="%char) k -> k <> [] -> exists c r, k ++ y = c :: r /\ isspace c = false).
  { intros k y Hk N. destruct Hk as [|c k [Hc _] Hk]; [congruence|]. exists c, (k ++ y). auto. }
  induction 1 as [|b k v u kvs Hb Hk Hv Hu H IH|b k u kvs Hb Hk Hn Hu Hku H IH]; intros fuel HL; destruct fuel as [|f]; try lia; [reflexivity| |]; cbn [ipt_list].
  - destruct (b ++ k ++ "="%char :: v ++ u) as [|c0 u0] eqn:EU; [destruct b; [destruct k|]; discriminate|]. rewrite <- EU in *. clear c0 u0 EU. cbv zeta. change (fun c => negb (isspace c || ceq c "=")) with namec.
    rewrite HB; auto. 2:{ destruct k as [|c k]; [right; exists "="%char, (v ++ u); auto|right; apply HH; [exact Hk|discriminate]]. }
    rewrite HN; [|exact Hk|right; exists "="%char, (v ++ u); split; reflexivity]. rewrite SA, FA. change (ceq "=" "=") with true. cbn iota.
    rewrite (scan_app (fun c => negb (isspace c)) v u).
    2:{ eapply Forall_impl; [|exact Hv]. intros c ->. reflexivity. }
    2:{ destruct Hu as [->|(c & r & -> & Hc)]; [left; reflexivity|right; exists c, r; rewrite Hc; auto]. }
    rewrite SA, FA. f_equal. apply IH. rewrite !app_length in HL. cbn [List.length] in HL. rewrite app_length in HL. lia.
  - destruct (b ++ k ++ u) as [|c0 u0] eqn:EU. { apply app_eq_nil in EU as [-> EU]. apply app_eq_nil in EU as [-> _]. exfalso. apply Hn. reflexivity. }
    rewrite <- EU in *. clear c0 u0 EU. cbv zeta. change (fun c => negb (isspace c || ceq c "=")) with namec.
    rewrite HB; auto. 2:{ destruct k as [|c k]; [left; rewrite (Hku eq_refl); reflexivity|right; apply HH; [exact Hk|discriminate]]. }
    rewrite HN; [|exact Hk|destruct Hu as [->|(c & r & -> & Hc)]; [left; reflexivity|right; exists c, r; split; [reflexivity|unfold namec; rewrite Hc; reflexivity]]].
    rewrite SA, FA. destruct Hu as [->|(c & r & -> & Hc)].
    + rewrite <- (IH 1) by (cbn; lia). reflexivity.
    + destruct (ceq c "=") eqn:EC; [apply ceq_true in EC; subst c; discriminate Hc|]. f_equal. apply IH.
      assert (k <> []) by (intros ->; discriminate (Hku eq_refl)). rewrite !app_length in HL. destruct k; [congruence|]. cbn [List.length] in *. lia.
Qed.
Theorem ipt_pairs_total u : exists kvs, ipt_pairs u kvs.
Proof. exists (ipt_list (S (List.length u)) u). apply ipt_list_ok. lia. Qed.
Theorem ipt_pairs_unique u a b : ipt_pairs u a -> ipt_pairs u b -> a = b.
Proof. intros A B. rewrite <- (ipt_pairs_list _ _ A (S (List.length u))), <- (ipt_pairs_list _ _ B (S (List.length u))) by lia. reflexivity. Qed.
Theorem v1_ipt_pairs u kvs fuel js : ipt_pairs u kvs -> List.length u < fuel -> v1_ipt fuel u js = fold_left (fun o m => obj_add o (fst m) (snd m)) kvs js.
Proof. intros H HL. rewrite v1_ipt_list, (ipt_pairs_list _ _ H) by exact HL. reflexivity. Qed.
