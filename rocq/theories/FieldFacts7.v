(** * FieldFacts7: cisco-interface-spec. *)
From Verif Require Import Base Time Parsers BaseFacts FieldSpec FieldSpec2 SafetySpec FieldFacts FieldFacts2 FieldFacts3 FieldFacts4 IntFacts DateFacts FieldFacts6.
From Coq Require Import ZifyBool ZifyNat ZifyN.

Lemma ipv4_len pre post : ipv4_g pre post -> 7 <= List.length pre.
Proof.
  intros (a & b & c & d & -> & Ha & Hb & Hc & Hd). unfold octet in *. rewrite !app_length. cbn [L list_ascii_of_string List.length]. lia.
Qed.
Lemma octet_hd o c r r' : octet o (c :: r) -> octet o (c :: r').
Proof. intros (H1 & H2 & H3 & H4). split; [exact H1|]. split; [exact H2|]. split; [exact H3|]. intros Hl x q [= <- <-]. eapply H4; [exact Hl|reflexivity]. Qed.
Lemma ipv4_hd pre c r r' : ipv4_g pre (c :: r) -> ipv4_g pre (c :: r').
Proof. intros (a & b & x & d & H1 & H2 & H3 & H4 & H5). exists a, b, x, d. split; [exact H1|]. split; [exact H2|]. split; [exact H3|]. split; [exact H4|]. eapply octet_hd; exact H5. Qed.
Lemma try4 t : (exists pre post, t = pre ++ post /\ ipv4_g pre post /\ parseIPv4 false t = Ok (List.length pre, JNull)) \/
  ((~ exists p q, t = p ++ q /\ ipv4_g p q) /\ exists k, parseIPv4 false t = Bad k).
Proof.
  destruct (parseIPv4 false t) as [[n v]|k|x] eqn:E.
  - left. pose proof E as E2. apply (ipv4_exact false t) in E2. destruct E2 as (pre & post & -> & -> & HG & ->). eauto 8.
  - right. split; [|eauto]. intros (p & q & -> & HG).
    pose proof (proj2 (ipv4_exact false (p ++ q) (List.length p) JNull)) as H. rewrite E in H. discriminate H. exists p, q. auto.
  - exfalso. unfold parseIPv4 in E.
    assert (G : forall A B (x : res A) (f : A -> res B) y, bind x f = Ub y -> x = Ub y \/ exists a, x = Ok a /\ f a = Ub y)
      by (intros A B [a|?|?] f y; cbn; [eauto|discriminate|intros [= ->]; auto]).
    assert (C : forall u y, chkIPv4AddrByte u <> Ub y).
    { intros u y. unfold chkIPv4AddrByte. destruct u as [|a [|b [|c u]]]; try discriminate; repeat (match goal with |- context [if ?b then _ else _] => destruct b end; try discriminate). }
    assert (D : forall ch u y, expect ch u <> Ub y) by (intros ch [|c u] y; cbn; [discriminate|destruct (ceq c ch); discriminate]).
    destruct (negb _); [|discriminate].
    repeat (apply G in E; destruct E as [E|(? & _ & E)]; [first [exact (C _ _ E) | exact (D _ _ _ E)]|]). discriminate.
Qed.
Definition num_ok (e : env) (t : text) : Prop := wraps e = true \/ ~ long_run 19 t.
Lemma num_ok_sfx e (T t a : text) : num_ok e T -> T = a ++ t -> num_ok e t.
Proof. intros [H|H] E; [left; exact H|right; eapply no_long_sfx; eauto]. Qed.
Lemma num_takes e t : num_ok e t -> takes_text (parseNumber e FmtString 0 false t) false t (number_g 0) /\ forall x, parseNumber e FmtString 0 false t <> Ub x.
Proof.
  intros [HW|HL].
  - split.
    + intros n v. destruct (number_wraps e 0 false t HW) as [HX _]. rewrite (HX n v). unfold number_gen, number_g.
      split; intros (pre & post & H1 & H2 & (H3 & H4 & H5) & H6); exists pre, post; (split; [exact H1|]); (split; [exact H2|]); (split; [split; [exact H3|split; [exact H4|lia]]|exact H6]).
    + intros x E. unfold parseNumber in E. rewrite number_loop_wraps in E by auto. cbn [bind] in E. destruct (negb (Nat.eqb _ 0)); [|discriminate]. destruct (negb _); discriminate.
  - assert (Hs : List.length (lead t) <= 18).
    { destruct (Nat.leb_spec (List.length (lead t)) 18); auto. exfalso. apply HL, lead_long. lia. }
    pose proof (lead_small 18 t Hs) as Hb. change (10 ^ Z.of_nat 18)%Z with 1000000000000000000%Z in Hb. split.
    + apply number_exact; change (2 ^ 63)%Z with 9223372036854775808%Z; lia.
    + intros x E. unfold parseNumber in E. rewrite number_loop_exact in E; [|lia|change (2 ^ 63)%Z with 9223372036854775808%Z; unfold decimal, dec_from in *; lia].
      cbn [bind] in E. destruct (negb (Nat.eqb _ 0)); [|discriminate]. destruct (negb _); discriminate.
Qed.
Lemma tryn e t : num_ok e t ->
  (exists pre post, t = pre ++ post /\ pre <> [] /\ max_run digit pre post /\ parseNumber e FmtString 0 false t = Ok (List.length pre, JNull)) \/
  ((forall p q, t = p ++ q -> p <> [] -> ~ all_digits p) /\ exists k, parseNumber e FmtString 0 false t = Bad k).
Proof.
  intros HL. destruct (num_takes e t HL) as [HX HU].
  destruct (parseNumber e FmtString 0 false t) as [[n v]|k|x] eqn:E.
  - left. destruct (proj1 (HX n v) eq_refl) as (pre & post & -> & -> & (H1 & H2 & _) & ->). exists pre, post. auto.
  - right. split; [|eauto]. intros p q -> Hp HD.
    destruct (run_split isdigit (p ++ q)) as (a & b & Hab & Ha & Hbb & Hsc).
    assert (HN : Bad k = Ok (List.length a, JNull)); [|discriminate].
    apply HX. exists a, b. split; [exact Hab|]. split; [reflexivity|]. split; [|reflexivity]. split; [|split; [split|lia]].
    + intros ->. rewrite scan_digits_app in Hsc by exact HD. destruct p; [congruence|cbn in Hsc; lia].
    + eapply Forall_impl; [|exact Ha]. intros z Hz. apply isdigit_iff. exact Hz.
    + intros c r Hc. apply isdigit_not. eapply Hbb. exact Hc.
  - exfalso. exact (HU x eq_refl).
Qed.

Lemma rd_at (a : text) u k : rd (a ++ u) (List.length a + k) = rd u k.
Proof. apply rd_skip. Qed.
Lemma skipn_at (a u : text) k : skipn (List.length a + k) (a ++ u) = skipn k u.
Proof. rewrite <- (skipn_skipn' (a ++ u) k (List.length a)). rewrite skipn_app_exact. reflexivity. Qed.

Lemma cisco_ip2_spec e (a u : text) : num_ok e u ->
  match cisco_ip2 e (a ++ u) (List.length a) with
  | Ok (j, Some (p, q, r, s)) => exists ip2 x port2 rest, second_at u (ip2, x, port2) rest /\
      p = List.length a + 2 /\ q = List.length ip2 /\ r = List.length a + 2 + List.length ip2 + 1 /\ s = List.length port2 /\
      j = List.length a + List.length (second_text (Some (ip2, x, port2)))
  | Ok (j, None) => j = List.length a /\ forall s r, ~ second_at u s r
  | _ => False
  end.
Proof.
  intros HL. unfold cisco_ip2. rewrite app_length.
  destruct (Nat.ltb_spec (List.length a + 5) (List.length a + List.length u)) as [Hl|Hl]; cbn [negb].
  2: { split; [reflexivity|]. intros [[ip2 x] port2] r (Hu & H4 & Hp & _). apply ipv4_len in H4. rewrite Hu in Hl. rewrite !app_length in Hl. cbn in Hl. lia. }
  destruct u as [|c u]; [cbn in Hl; lia|]. destruct u as [|d u]; [cbn in Hl; lia|].
  replace (rd (a ++ c :: d :: u) (List.length a)) with (Ok c) by (rewrite rd_app1 by reflexivity; reflexivity). cbn [bind].
  destruct (ceq c " ") eqn:Ec; cbn [negb].
  2: { apply ceq_false in Ec. split; [reflexivity|]. intros [[ip2 x] port2] r (Hu & _). injection Hu as -> _ _. congruence. }
  rewrite rd_at. cbn [rd nth_error bind]. destruct (ceq d "(") eqn:Ed; cbn [negb].
  2: { apply ceq_false in Ed. split; [reflexivity|]. intros [[ip2 x] port2] r (Hu & _). injection Hu as _ -> _. congruence. }
  apply ceq_true in Ec, Ed. subst c d. rewrite skipn_at. change (skipn 2 (" "%char :: "("%char :: u)) with u.
  destruct (try4 u) as [(ip & q & -> & H4 & E)|(Hno & k & E)]; rewrite E; cbn [try_len bind].
  2: { split; [reflexivity|]. intros [[ip2 x] port2] r (Hu & H4 & _). injection Hu as ->. apply Hno. exists ip2, ([x] ++ port2 ++ L ")" ++ r).
       split; [reflexivity|]. cbn [app]. eapply ipv4_hd. exact H4. }
  destruct (Nat.ltb_spec (List.length a) (List.length a + List.length (" "%char :: "("%char :: ip ++ q))) as [_|HH]; [|cbn in HH; lia].
  cbn [bind negb].
  replace (S (List.length a + 2 + List.length ip)) with (List.length a + (2 + List.length ip + 1)) by lia.
  rewrite skipn_at. change (skipn (2 + List.length ip + 1) (" "%char :: "("%char :: ip ++ q)) with (skipn (List.length ip + 1) (ip ++ q)).
  assert (HU : forall ip2 x port2 r, second_at (" "%char :: "("%char :: ip ++ q) (ip2, x, port2) r -> ip2 = ip /\ q = x :: port2 ++ L ")" ++ r /\ port2 <> [] /\ all_digits port2).
  { intros ip2 x port2 r (Hu & H42 & Hp & HD). injection Hu as Hu.
    assert (E2 : parseIPv4 false (ip ++ q) = Ok (List.length ip2, JNull)).
    { apply (ipv4_exact false). exists ip2, ([x] ++ port2 ++ L ")" ++ r). split; [exact Hu|]. split; [reflexivity|]. split; [|reflexivity]. eapply ipv4_hd. exact H42. }
    rewrite E in E2. injection E2 as E2. apply app_len_inj in Hu; [|exact E2]. destruct Hu as [-> ->]. auto. }
  destruct q as [|x q].
  { rewrite app_nil_r. replace (skipn (List.length ip + 1) ip) with (@nil ascii) by (symmetry; apply skipn_all2; lia).
    change (parseNumber e FmtString 0 false []) with (@Bad (nat * json) 0). cbn [try_len bind]. split; [reflexivity|].
    intros [[ip2 x] port2] r HS. rewrite app_nil_r in HU. destruct (HU _ _ _ _ HS) as (_ & HH & _). discriminate. }
  replace (skipn (List.length ip + 1) (ip ++ x :: q)) with q.
  2: { rewrite skipn_at. reflexivity. }
  assert (HL2 : num_ok e q) by (eapply num_ok_sfx; [exact HL|]; instantiate (1 := " "%char :: "("%char :: ip ++ [x]); sfx).
  destruct (tryn e q HL2) as [(p2 & z & -> & Hp2 & Hmr & E2)|(Hno & k & E2)]; rewrite E2; cbn [try_len bind].
  2: { split; [reflexivity|]. intros [[ip2 y] port2] r HS. destruct (HU _ _ _ _ HS) as (-> & HH & Hp & HD). injection HH as _ ->.
       apply (Hno port2 (L ")" ++ r) eq_refl Hp HD). }
  replace (List.length a + (2 + List.length ip + 1) + List.length p2) with (List.length (a ++ " "%char :: "("%char :: ip ++ x :: p2)) by (rewrite app_length; cbn [List.length]; rewrite app_length; cbn [List.length]; lia).
  assert (HT : a ++ " "%char :: "("%char :: ip ++ x :: p2 ++ z = (a ++ " "%char :: "("%char :: ip ++ x :: p2) ++ z) by sfx.
  assert (HU2 : forall ip2 y port2 r, second_at (" "%char :: "("%char :: ip ++ x :: p2 ++ z) (ip2, y, port2) r -> ip2 = ip /\ y = x /\ port2 = p2 /\ z = L ")" ++ r).
  { intros ip2 y port2 r HS. destruct (HU _ _ _ _ HS) as (-> & HH & Hp & HD). injection HH as -> HH.
    assert (HSc : List.length p2 = List.length port2).
    { destruct Hmr as [Hm1 Hm2]. rewrite <- (scan_run isdigit p2 z), <- (scan_run isdigit port2 (L ")" ++ r)); [rewrite HH; reflexivity| | | |].
      - eapply Forall_impl; [|exact HD]. intros w Hw. apply isdigit_iff. exact Hw.
      - intros w s [= <- _]. reflexivity.
      - eapply Forall_impl; [|exact Hm1]. intros w Hw. apply isdigit_iff. exact Hw.
      - intros w s Hw. apply isdigit_not. eapply Hm2. exact Hw. }
    apply app_len_inj in HH; [|exact HSc]. destruct HH as [-> ->]. auto. }
  rewrite <- (app_length a), HT.
  destruct z as [|w z].
  { rewrite app_nil_r. destruct (Nat.ltb_spec (List.length (a ++ " "%char :: "("%char :: ip ++ x :: p2)) (List.length (a ++ " "%char :: "("%char :: ip ++ x :: p2))) as [HH|_]; [lia|]. cbn [negb].
    split; [reflexivity|]. intros [[ip2 y] port2] r HS. destruct (HU2 _ _ _ _ HS) as (_ & _ & _ & HH). discriminate. }
  rewrite (app_length (a ++ " "%char :: "("%char :: ip ++ x :: p2) (w :: z)). destruct (Nat.ltb_spec (List.length (a ++ " "%char :: "("%char :: ip ++ x :: p2)) (List.length (a ++ " "%char :: "("%char :: ip ++ x :: p2) + List.length (w :: z))) as [_|HH]; [|cbn in HH; lia].
  cbn [negb]. rewrite rd_app1 by reflexivity. cbn [bind]. destruct (ceq w ")") eqn:Ew.
  - apply ceq_true in Ew. subst w. exists ip, x, p2, z. split.
    + split; [reflexivity|]. split; [eapply ipv4_hd; exact H4|]. split; [exact Hp2|apply Hmr].
    + split; [reflexivity|]. split; [reflexivity|]. split; [lia|]. split; [reflexivity|]. unfold second_text. cbn [L list_ascii_of_string app List.length]. rewrite !app_length. cbn [List.length]. rewrite !app_length. cbn [List.length]. lia.
  - apply ceq_false in Ew. split; [reflexivity|]. intros [[ip2 y] port2] r HS. destruct (HU2 _ _ _ _ HS) as (_ & _ & _ & HH). injection HH as -> _. congruence.
Qed.

Definition userch (c : ascii) : bool := (negb (isspace c) && negb (ceq c ")"))%bool.
Lemma userch_iff c : userch c = true <-> ~ space c /\ c <> ")"%char.
Proof. unfold userch. rewrite andb_true_iff, !negb_true_iff, ceq_false, <- not_true_iff_false, isspace_iff. reflexivity. Qed.
Lemma paren_user : userch ")"%char = false. Proof. reflexivity. Qed.

(** reading the name behind the parenthesis *)
Lemma user_body (b w : text) : Nat.ltb 0 (List.length w) = true -> 
  (exists user r, w = user ++ L ")" ++ r /\ Forall (fun c => ~ space c /\ c <> ")"%char) user /\
     scan userch w = List.length user /\ rd (b ++ w) (List.length b + List.length user) = Ok ")"%char) \/
  ((forall user r, w = user ++ L ")" ++ r -> ~ Forall (fun c => ~ space c /\ c <> ")"%char) user) /\
     (Nat.ltb (List.length b + scan userch w) (List.length (b ++ w)) = false \/
      exists c, rd (b ++ w) (List.length b + scan userch w) = Ok c /\ ceq c ")" = false)).
Proof.
  intros _. destruct (run_split userch w) as (x & y & Hw & Hx & Hy & Hs).
  assert (HU : forall user r, w = user ++ L ")" ++ r -> Forall (fun c => ~ space c /\ c <> ")"%char) user -> user = x /\ y = L ")" ++ r).
  { intros user r H HF. assert (HSl : List.length user = List.length x).
    { rewrite <- Hs, H. symmetry. apply scan_run; [eapply Forall_impl; [|exact HF]; intros z Hz; apply userch_iff; exact Hz|]. intros z q [= <- _]. reflexivity. }
    rewrite Hw in H. apply app_len_inj in H; [|symmetry; exact HSl]. destruct H as [-> ->]. auto. }
  assert (HFx : Forall (fun c => ~ space c /\ c <> ")"%char) x) by (eapply Forall_impl; [|exact Hx]; intros z Hz; apply userch_iff; exact Hz).
  destruct y as [|c y].
  - right. split.
    + intros user r H HF. destruct (HU user r H HF) as [_ HH]. discriminate.
    + left. rewrite Hs, Hw, app_length, app_nil_r. apply Nat.ltb_ge. lia.
  - destruct (ceq c ")") eqn:Ec.
    + left. apply ceq_true in Ec. subst c. exists x, y. split; [exact Hw|]. split; [exact HFx|]. split; [exact Hs|]. rewrite rd_at, Hw. apply rd_app1. reflexivity.
    + right. split.
      * intros user r H HF. destruct (HU user r H HF) as [_ HH]. injection HH as -> _. discriminate.
      * right. exists c. split; [|exact Ec]. rewrite rd_at, Hs, Hw. apply rd_app1. reflexivity.
Qed.

Lemma cisco_user_spec (a u : text) :
  match cisco_user (a ++ u) (List.length a) with
  | Ok (j, Some (p, q)) => exists sp user rest, user_at u (sp, user) rest /\
      p = List.length a + List.length sp + 1 /\ q = List.length user /\ j = List.length a + List.length (user_text (Some (sp, user)))
  | Ok (j, None) => j = List.length a /\ forall s r, ~ user_at u s r
  | _ => False
  end.
Proof.
  unfold cisco_user. rewrite app_length.
  (* what the two tests mean *)
  assert (HC : exists cond, (let* cond1 :=
      if Nat.ltb (List.length a + 2) (List.length a + List.length u) then
        let* c := rd (a ++ u) (List.length a) in
        if ceq c "(" then let* d := rd (a ++ u) (List.length a + 1) in Ok (negb (isspace d)) else Ok false
      else Ok false in
     if cond1 then Ok true
     else if Nat.ltb (List.length a + 3) (List.length a + List.length u) then
       let* c := rd (a ++ u) (List.length a) in
       if ceq c " " then
         let* d := rd (a ++ u) (List.length a + 1) in
         if ceq d "(" then let* f := rd (a ++ u) (List.length a + 2) in Ok (negb (isspace f)) else Ok false
       else Ok false
     else Ok false) = Ok cond /\
     (cond = true <-> exists sp w d r, u = sp ++ L "(" ++ w /\ (sp = [] \/ sp = L " ") /\ w = d :: r /\ r <> [] /\ ~ space d)).
  { replace (rd (a ++ u) (List.length a)) with (rd u 0) by (rewrite <- (rd_at a u 0); f_equal; lia). rewrite !rd_at.
    assert (HX : forall k, Nat.ltb (List.length a + k) (List.length a + List.length u) = Nat.ltb k (List.length u))
      by (intros k; destruct (Nat.ltb_spec (List.length a + k) (List.length a + List.length u)), (Nat.ltb_spec k (List.length u)); lia).
    rewrite !HX. clear HX.
    destruct u as [|c0 [|c1 [|c2 [|c3 u]]]].
    - exists false. split; [reflexivity|]. split; [discriminate|]. intros (sp & w & d & r & Hu & [->| ->] & _); discriminate.
    - exists false. split; [reflexivity|]. split; [discriminate|]. intros (sp & w & d & r & Hu & [->| ->] & -> & _); discriminate.
    - exists false. split; [reflexivity|]. split; [discriminate|]. intros (sp & w & d & r & Hu & [->| ->] & -> & Hr & _); [|discriminate]. injection Hu as _ _ <-. congruence.
    - change (Nat.ltb 2 (List.length [c0; c1; c2])) with true. change (Nat.ltb 3 (List.length [c0; c1; c2])) with false. cbn [rd nth_error bind].
      destruct (ceq c0 "(") eqn:E0; cbn [bind].
      + apply ceq_true in E0. subst c0. exists (negb (isspace c1)). split; [destruct (negb (isspace c1)); reflexivity|].
        change (negb (isspace c1)) with (nonsp c1). rewrite nonsp_iff. split.
        * intros H. exists [], [c1; c2], c1, [c2]. split; [reflexivity|]. split; [left; reflexivity|]. split; [reflexivity|]. split; [discriminate|exact H].
        * intros (sp & w & d & r & Hu & [->| ->] & -> & Hr & Hd); [injection Hu as <- _; exact Hd|discriminate].
      + exists false. split; [reflexivity|]. apply ceq_false in E0. split; [discriminate|].
        intros (sp & w & d & r & Hu & [->| ->] & -> & Hr & Hd); [injection Hu as -> _ _; congruence|]. injection Hu as _ _ _ <-. congruence.
    - change (Nat.ltb 2 (List.length (c0 :: c1 :: c2 :: c3 :: u))) with true. change (Nat.ltb 3 (List.length (c0 :: c1 :: c2 :: c3 :: u))) with true. cbn [rd nth_error bind].
      destruct (ceq c0 "(") eqn:E0; cbn [bind].
      + apply ceq_true in E0. subst c0. exists (negb (isspace c1)). split; [destruct (negb (isspace c1)); reflexivity|].
        change (negb (isspace c1)) with (nonsp c1). rewrite nonsp_iff. split.
        * intros H. exists [], (c1 :: c2 :: c3 :: u), c1, (c2 :: c3 :: u). split; [reflexivity|]. split; [left; reflexivity|]. split; [reflexivity|]. split; [discriminate|exact H].
        * intros (sp & w & d & r & Hu & [->| ->] & -> & Hr & Hd); [injection Hu as <- _; exact Hd|discriminate].
      + apply ceq_false in E0. destruct (ceq c0 " ") eqn:E1; cbn [bind].
        2: { apply ceq_false in E1. exists false. split; [reflexivity|]. split; [discriminate|].
             intros (sp & w & d & r & Hu & [->| ->] & -> & Hr & Hd); injection Hu as -> _; congruence. }
        apply ceq_true in E1. subst c0. destruct (ceq c1 "(") eqn:E2; cbn [bind].
        * apply ceq_true in E2. subst c1. exists (negb (isspace c2)). split; [reflexivity|].
          change (negb (isspace c2)) with (nonsp c2). rewrite nonsp_iff. split.
          -- intros H. exists (L " "), (c2 :: c3 :: u), c2, (c3 :: u). split; [reflexivity|]. split; [right; reflexivity|]. split; [reflexivity|]. split; [discriminate|exact H].
          -- intros (sp & w & d & r & Hu & [->| ->] & -> & Hr & Hd); [discriminate|]. injection Hu as <- _. exact Hd.
        * apply ceq_false in E2. exists false. split; [reflexivity|]. split; [discriminate|].
          intros (sp & w & d & r & Hu & [->| ->] & -> & Hr & Hd); injection Hu; intros; congruence. }
  destruct HC as (cond & HC1 & HC2).
  (* a user name that is there passes the tests *)
  assert (HC3 : forall s r, user_at u s r -> cond = true).
  { intros [sp user] r (Hu & Hsp & HF & Hne). apply HC2. destruct user as [|x user].
    - destruct r as [|y r]; [destruct Hne; congruence|]. exists sp, (L ")" ++ y :: r), ")"%char, (y :: r). split; [exact Hu|]. split; [exact Hsp|]. split; [reflexivity|]. split; [discriminate|].
      intros HH. apply isspace_iff in HH. discriminate.
    - exists sp, ((x :: user) ++ L ")" ++ r), x, (user ++ L ")" ++ r). split; [exact Hu|]. split; [exact Hsp|]. split; [reflexivity|]. split; [destruct user; discriminate|].
      apply Forall_inv in HF. apply HF. }
  match goal with |- match ?X with _ => _ end => assert (HX : X =
     let* cond := (let* cond1 :=
      if Nat.ltb (List.length a + 2) (List.length a + List.length u) then
        let* c := rd (a ++ u) (List.length a) in
        if ceq c "(" then let* d := rd (a ++ u) (List.length a + 1) in Ok (negb (isspace d)) else Ok false
      else Ok false in
     if cond1 then Ok true
     else if Nat.ltb (List.length a + 3) (List.length a + List.length u) then
       let* c := rd (a ++ u) (List.length a) in
       if ceq c " " then
         let* d := rd (a ++ u) (List.length a + 1) in
         if ceq d "(" then let* f := rd (a ++ u) (List.length a + 2) in Ok (negb (isspace f)) else Ok false
       else Ok false
     else Ok false) in
     if negb cond then Ok (List.length a, None) else
     let* c := rd (a ++ u) (List.length a) in
     let idxUser := List.length a + (if ceq c " " then 2 else 1) in
     let iTmp := idxUser + scan userch (skipn idxUser (a ++ u)) in
     if negb (Nat.ltb iTmp (List.length a + List.length u)) then Ok (List.length a, None) else
     let* c := rd (a ++ u) iTmp in
     if ceq c ")" then Ok (S iTmp, Some (idxUser, iTmp - idxUser)) else Ok (List.length a, None)) end.
  { match goal with |- bind ?x _ = _ => destruct x as [c1| |]; reflexivity end. }
  rewrite HX, HC1. clear HX. cbn [bind]. destruct cond.
  2: { cbn [negb]. split; [reflexivity|]. intros s r HS. specialize (HC3 s r HS). discriminate. }
  cbn [negb]. clear HC1 HC3. destruct HC2 as [HC2 _]. destruct (HC2 eq_refl) as (sp & w & d & r & Hu & Hsp & Hw & Hr & Hd). clear HC2.
  assert (HB : exists c, rd (a ++ u) (List.length a) = Ok c /\ List.length a + (if ceq c " " then 2 else 1) = List.length (a ++ sp ++ L "(") /\ (a ++ u) = (a ++ sp ++ L "(") ++ w).
  { destruct Hsp as [->| ->]; rewrite Hu.
    - exists "("%char. split; [apply rd_app1; reflexivity|]. split; [rewrite app_length; reflexivity|]. sfx.
    - exists " "%char. split; [apply rd_app1; reflexivity|]. split; [rewrite app_length; reflexivity|]. sfx. }
  destruct HB as (c & HB1 & HB2 & HB3). rewrite HB1. cbn [bind]. cbv zeta. rewrite HB2, HB3, skipn_app_exact. rewrite <- (app_length a u), HB3.
  assert (HUQ : forall s q, user_at u s q -> exists user, s = (sp, user) /\ w = user ++ L ")" ++ q /\ Forall (fun c => ~ space c /\ c <> ")"%char) user).
  { intros [sp' user] q (Hu' & Hsp' & HF & _). rewrite Hu in Hu'. destruct Hsp as [->| ->], Hsp' as [->| ->]; try discriminate; injection Hu' as Hu'; eauto. }
  destruct (user_body (a ++ sp ++ L "(") w) as [(user & q & Hw2 & HF & HS & HR)|(Hno & HR)]; [rewrite Hw; reflexivity| |].
  - rewrite HS. destruct (Nat.ltb_spec (List.length (a ++ sp ++ L "(") + List.length user) (List.length ((a ++ sp ++ L "(") ++ w))) as [_|HH]; [|rewrite (app_length (a ++ sp ++ L "(") w) in HH; assert (List.length user < List.length w) by (rewrite Hw2, app_length; cbn; lia); lia].
    cbn [negb]. rewrite HR. cbn [bind]. rewrite ceq_refl. exists sp, user, q. split.
    + split; [rewrite Hu, Hw2; reflexivity|]. split; [exact Hsp|]. split; [exact HF|]. destruct user as [|y user]; [right|left; discriminate].
      rewrite Hw in Hw2. cbn [app] in Hw2. injection Hw2 as _ Hw2. congruence.
    + rewrite !app_length. unfold user_text. rewrite !app_length. cbn [L list_ascii_of_string List.length]. lia.
  - assert (HNU : forall s q, ~ user_at u s q).
    { intros s q HS. destruct (HUQ s q HS) as (user & _ & Hw2 & HF). exact (Hno user q Hw2 HF). }
    destruct HR as [HR|(c2 & HR & HR2)].
    + rewrite HR. cbn [negb]. split; [reflexivity|exact HNU].
    + destruct (Nat.ltb _ _); cbn [negb]; [|split; [reflexivity|exact HNU]]. rewrite HR. cbn [bind]. rewrite HR2. split; [reflexivity|exact HNU].
Qed.

Lemma second_unique u s r s' r' : second_at u s r -> second_at u s' r' -> s = s' /\ r = r'.
Proof.
  destruct s as [[ip x] p], s' as [[ip' x'] p']. intros (Hu & H4 & Hp & HD) (Hu' & H4' & Hp' & HD'). rewrite Hu in Hu'. injection Hu' as Hu'.
  assert (E1 : parseIPv4 false (ip ++ x :: p ++ ")"%char :: r) = Ok (List.length ip, JNull)).
  { apply (ipv4_exact false). exists ip, (x :: p ++ ")"%char :: r). split; [reflexivity|]. split; [reflexivity|]. split; [eapply ipv4_hd; exact H4|reflexivity]. }
  assert (E2 : parseIPv4 false (ip ++ x :: p ++ ")"%char :: r) = Ok (List.length ip', JNull)).
  { apply (ipv4_exact false). exists ip', (x' :: p' ++ ")"%char :: r'). split; [exact Hu'|]. split; [reflexivity|]. split; [eapply ipv4_hd; exact H4'|reflexivity]. }
  rewrite E1 in E2. injection E2 as E2. apply app_len_inj in Hu'; [|exact E2]. destruct Hu' as [-> Hu']. injection Hu' as -> Hu'.
  assert (HSc : List.length p = List.length p').
  { rewrite <- (scan_run isdigit p (")"%char :: r)), <- (scan_run isdigit p' (")"%char :: r')); [rewrite Hu'; reflexivity| | | |].
    - eapply Forall_impl; [|exact HD']. intros w Hw. apply isdigit_iff. exact Hw.
    - intros w z [= <- _]. reflexivity.
    - eapply Forall_impl; [|exact HD]. intros w Hw. apply isdigit_iff. exact Hw.
    - intros w z [= <- _]. reflexivity. }
  apply app_len_inj in Hu'; [|exact HSc]. destruct Hu' as [-> Hu']. injection Hu' as ->. auto.
Qed.
Lemma user_unique u s r s' r' : user_at u s r -> user_at u s' r' -> s = s' /\ r = r'.
Proof.
  destruct s as [sp us], s' as [sp' us']. intros (Hu & Hsp & HF & _) (Hu' & Hsp' & HF' & _). rewrite Hu in Hu'.
  assert (HE : sp = sp' /\ us ++ ")"%char :: r = us' ++ ")"%char :: r').
  { destruct Hsp as [->| ->], Hsp' as [->| ->]; try discriminate; injection Hu' as Hu'; auto. }
  destruct HE as [-> HE].
  assert (HSc : List.length us = List.length us').
  { rewrite <- (scan_run userch us (")"%char :: r)), <- (scan_run userch us' (")"%char :: r')); [rewrite HE; reflexivity| | | |].
    - eapply Forall_impl; [|exact HF']. intros w Hw. apply userch_iff. exact Hw.
    - intros w z [= <- _]. reflexivity.
    - eapply Forall_impl; [|exact HF]. intros w Hw. apply userch_iff. exact Hw.
    - intros w z [= <- _]. reflexivity. }
  apply app_len_inj in HE; [|exact HSc]. destruct HE as [-> HE]. injection HE as ->. auto.
Qed.

Definition ifch (c : ascii) : bool := (negb (isspace c) && negb (ceq c ":"))%bool.
Lemma ifch_iff c : ifch c = true <-> ~ space c /\ c <> ":"%char.
Proof. unfold ifch. rewrite andb_true_iff, !negb_true_iff, ceq_false, <- not_true_iff_false, isspace_iff. reflexivity. Qed.
Lemma iface_spec : forall t i k, cisco_iface t i = Ok k <->
  exists n, Forall (fun c => ~ space c /\ c <> ":"%char) n /\ k = i + List.length n /\ (t = n \/ exists r, t = n ++ L ":" ++ r).
Proof.
  induction t as [|c t IH]; intros i k; cbn [cisco_iface].
  - split.
    + intros [= <-]. exists []. split; [constructor|]. split; [cbn; lia|]. left. reflexivity.
    + intros (n & _ & -> & [<-|[r H]]); [f_equal; cbn; lia|]. destruct n; discriminate.
  - destruct (isspace c) eqn:Es; cbn [negb].
    + split; [discriminate|]. apply isspace_iff in Es. intros (n & HF & _ & H). exfalso. destruct n as [|x n].
      * destruct H as [H|[r H]]; [discriminate|]. injection H as H _. subst c. apply isspace_iff in Es. discriminate.
      * apply Forall_inv in HF. destruct H as [H|[r H]]; injection H as H _; subst x; tauto.
    + destruct (ceq c ":") eqn:Ec.
      * apply ceq_true in Ec. subst c. split.
        -- intros [= <-]. exists []. split; [constructor|]. split; [cbn; lia|]. right. exists t. reflexivity.
        -- intros (n & HF & -> & H). destruct n as [|x n]; [cbn; f_equal; lia|]. apply Forall_inv in HF.
           destruct H as [H|[r H]]; injection H as H _; subst x; tauto.
      * apply ceq_false in Ec. rewrite IH. assert (Hc : ~ space c) by (intros HH; apply isspace_iff in HH; congruence). split.
        -- intros (n & HF & -> & H). exists (c :: n). split; [constructor; auto|]. split; [cbn; lia|]. destruct H as [->|[r ->]]; [left; reflexivity|right; exists r; reflexivity].
        -- intros (n & HF & -> & H). destruct n as [|x n].
           ++ destruct H as [H|[r H]]; [discriminate|]. injection H as H _. congruence.
           ++ destruct H as [H|[r H]]; injection H as -> H; exists n; (split; [apply Forall_inv_tail in HF; exact HF|]); (split; [cbn; lia|]); [left|right; exists r]; exact H.
Qed.

(** everything behind the port *)
Definition cisco_rest (e : env) (want : bool) (t : text) (i : nat) (iface : option nat) (idxIP lenIP idxPort lenPort : nat) : pres :=
  let* (i, ip2) := cisco_ip2 e t i in
  let* (i, user) := cisco_user t i in
  if negb want then Ok (i, JNull)
  else
    let o := [] in
    let o := match iface with
             | Some len => obj_add_new o (L "interface") (JStr (sub t 0 len)) | None => o end in
    let o := obj_add_new o (L "ip") (JStr (sub t idxIP lenIP)) in
    let o := obj_add_new o (L "port") (JStr (sub t idxPort lenPort)) in
    let o := match ip2 with
             | Some (a, b, c, d) =>
                 obj_add_new (obj_add_new o (L "ip2") (JStr (sub t a b))) (L "port2") (JStr (sub t c d))
             | None => o end in
    let o := match user with
             | Some (a, b) => obj_add_new o (L "user") (JStr (sub t a b)) | None => o end in
    Ok (i, JObj o).

Lemma sub_at (a b c : text) i n : i = List.length a -> n = List.length b -> sub (a ++ b ++ c) i n = b.
Proof. intros -> ->. unfold sub. rewrite skipn_app_exact, firstn_app_exact. reflexivity. Qed.

Lemma rest_exact4 e want (ifc : option text) ip port r1 : num_ok e r1 ->
  let hd := match ifc with None => [] | Some n => n ++ L ":" end in
  exists sec us r2 post,
    (r1 = second_text sec ++ r2 /\ match sec with Some x => second_at r1 x r2 | None => forall x r, ~ second_at r1 x r end) /\
    (r2 = user_text us ++ post /\ match us with Some x => user_at r2 x post | None => forall x r, ~ user_at r2 x r end) /\
    cisco_rest e want (hd ++ ip ++ L "/" ++ port ++ r1) (List.length (hd ++ ip ++ L "/" ++ port))
      (match ifc with None => None | Some n => Some (List.length n) end) (List.length hd) (List.length ip) (List.length (hd ++ ip ++ L "/")) (List.length port) =
    Ok (List.length (hd ++ ip ++ L "/" ++ port ++ second_text sec ++ user_text us),
        if want then cisco_value {| c_iface := ifc; c_ip := ip; c_port := port; c_second := sec; c_user := us |} else JNull).
Proof.
  intros HL hd. unfold cisco_rest.
  set (T := hd ++ ip ++ L "/" ++ port ++ r1).
  assert (HT : T = (hd ++ ip ++ L "/" ++ port) ++ r1) by (unfold T; rewrite <- !app_assoc; reflexivity).
  assert (HS : exists sec r2, (r1 = second_text sec ++ r2 /\ match sec with Some x => second_at r1 x r2 | None => forall x r, ~ second_at r1 x r end) /\
     cisco_ip2 e T (List.length (hd ++ ip ++ L "/" ++ port)) = Ok (List.length (hd ++ ip ++ L "/" ++ port ++ second_text sec),
       match sec with None => None | Some (ip2, x, port2) => Some (List.length (hd ++ ip ++ L "/" ++ port) + 2, List.length ip2, List.length (hd ++ ip ++ L "/" ++ port) + 2 + List.length ip2 + 1, List.length port2) end)).
  { pose proof (cisco_ip2_spec e (hd ++ ip ++ L "/" ++ port) r1 HL) as H. rewrite HT.
    destruct (cisco_ip2 e _ _) as [[j [[[[p q] r] s]|]]| |]; [| |contradiction|contradiction].
    - destruct H as (ip2 & x & port2 & rest & H & -> & -> & -> & -> & ->). exists (Some (ip2, x, port2)), rest. split.
      + split; [|exact H]. destruct H as (H & _). rewrite H. unfold second_text. rewrite <- !app_assoc. reflexivity.
      + f_equal. f_equal. rewrite !app_length. lia.
    - destruct H as (-> & H). exists None, r1. split; [split; [reflexivity|exact H]|]. cbn [second_text]. rewrite app_nil_r. reflexivity. }
  destruct HS as (sec & r2 & HS1 & HS2). rewrite HS2. cbn [bind].
  assert (HT2 : T = (hd ++ ip ++ L "/" ++ port ++ second_text sec) ++ r2) by (unfold T; rewrite (proj1 HS1); rewrite <- !app_assoc; reflexivity).
  assert (HU : exists us post, (r2 = user_text us ++ post /\ match us with Some x => user_at r2 x post | None => forall x r, ~ user_at r2 x r end) /\
     cisco_user T (List.length (hd ++ ip ++ L "/" ++ port ++ second_text sec)) = Ok (List.length (hd ++ ip ++ L "/" ++ port ++ second_text sec ++ user_text us),
       match us with None => None | Some (sp, user) => Some (List.length (hd ++ ip ++ L "/" ++ port ++ second_text sec) + List.length sp + 1, List.length user) end)).
  { pose proof (cisco_user_spec (hd ++ ip ++ L "/" ++ port ++ second_text sec) r2) as H. rewrite HT2.
    destruct (cisco_user _ _) as [[j [[p q]|]]| |]; [| |contradiction|contradiction].
    - destruct H as (sp & user & rest & H & -> & -> & ->). exists (Some (sp, user)), rest. split.
      + split; [|exact H]. destruct H as (H & _). rewrite H. unfold user_text. rewrite <- !app_assoc. reflexivity.
      + f_equal. f_equal. rewrite !app_length. lia.
    - destruct H as (-> & H). exists None, r2. split; [split; [reflexivity|exact H]|]. cbn [user_text]. rewrite app_nil_r. reflexivity. }
  destruct HU as (us & post & HU1 & HU2). rewrite HU2. cbn [bind].
  exists sec, us, r2, post. split; [exact HS1|]. split; [exact HU1|]. destruct want; [|reflexivity]. cbn [negb]. f_equal. f_equal.
  assert (Hip : sub T (List.length hd) (List.length ip) = ip) by (apply sub_at; reflexivity).
  assert (Hpo : sub T (List.length (hd ++ ip ++ L "/")) (List.length port) = port).
  { replace T with ((hd ++ ip ++ L "/") ++ port ++ r1) by (unfold T; rewrite <- !app_assoc; reflexivity). apply sub_at; reflexivity. }
  rewrite Hip, Hpo. unfold cisco_value; cbn [c_iface c_ip c_port c_second c_user]. f_equal.
  assert (Hsec : match sec with None => True | Some (ip2, x, port2) =>
     sub T (List.length (hd ++ ip ++ L "/" ++ port) + 2) (List.length ip2) = ip2 /\ sub T (List.length (hd ++ ip ++ L "/" ++ port) + 2 + List.length ip2 + 1) (List.length port2) = port2 end).
  { destruct sec as [[[ip2 x] port2]|]; [|exact I]. rewrite HT2. unfold second_text. split.
    - replace ((hd ++ ip ++ L "/" ++ port ++ L " (" ++ ip2 ++ [x] ++ port2 ++ L ")") ++ r2) with ((hd ++ ip ++ L "/" ++ port ++ L " (") ++ ip2 ++ ([x] ++ port2 ++ L ")" ++ r2)) by (rewrite <- !app_assoc; reflexivity).
      apply sub_at; [|reflexivity]. rewrite !app_length. cbn [L list_ascii_of_string List.length]. lia.
    - replace ((hd ++ ip ++ L "/" ++ port ++ L " (" ++ ip2 ++ [x] ++ port2 ++ L ")") ++ r2) with ((hd ++ ip ++ L "/" ++ port ++ L " (" ++ ip2 ++ [x]) ++ port2 ++ (L ")" ++ r2)) by (rewrite <- !app_assoc; reflexivity).
      apply sub_at; [|reflexivity]. rewrite !app_length. cbn [L list_ascii_of_string List.length]. lia. }
  assert (Hus : match us with None => True | Some (sp, user) =>
     sub T (List.length (hd ++ ip ++ L "/" ++ port ++ second_text sec) + List.length sp + 1) (List.length user) = user end).
  { destruct us as [[sp user]|]; [|exact I]. rewrite HT2, (proj1 HU1). unfold user_text.
    replace ((hd ++ ip ++ L "/" ++ port ++ second_text sec) ++ (sp ++ L "(" ++ user ++ L ")") ++ post) with ((hd ++ ip ++ L "/" ++ port ++ second_text sec ++ sp ++ L "(") ++ user ++ (L ")" ++ post)) by (rewrite <- !app_assoc; reflexivity).
    apply sub_at; [|reflexivity]. rewrite !app_length. cbn [L list_ascii_of_string List.length]. lia. }
  assert (Hif : match ifc with None => True | Some n => sub T 0 (List.length n) = n end).
  { unfold T, hd. destruct ifc as [n|]; [|exact I]. rewrite <- !app_assoc. apply (sub_at [] n); reflexivity. }
  unfold obj_add_new. destruct sec as [[[ip2 x] port2]|], us as [[sp user]|], ifc as [n|];
    try (destruct Hsec as [-> ->]); try rewrite Hus; try rewrite Hif; reflexivity.
Qed.

Lemma cisco_unfold e want t : parseCisco e want t =
  (let n := List.length t in
  let* c := rd t 0 in
  check (negb (ceq c ":" || isspace c)) ;;
  let* ip0 := try_len (parseIPv4 false t) in
  let* (i, iface, haveIP) :=
    match ip0 with
    | Some len => Ok (len - 1, None, Some len)
    | None => let* i := cisco_iface t 0 in Ok (i, Some i, None)
    end in
  check (negb (Nat.eqb i n)) ;;
  let i := S i in
  let* (i, idxIP, lenIP) :=
    match haveIP with
    | Some len => Ok (i, 0, len)
    | None => let* (len, _) := parseIPv4 false (skipn i t) in Ok (i + len, i, len)
    end in
  check (negb (Nat.eqb i n)) ;;
  let* c := rd t i in
  check (ceq c "/") ;;
  let i := S i in
  let idxPort := i in
  let* (lenPort, _) := parseNumber e FmtString 0 false (skipn i t) in
  cisco_rest e want t (i + lenPort) iface idxIP lenIP idxPort lenPort).
Proof. reflexivity. Qed.

(** everything behind the address *)
Lemma cisco_port e want (ifc : option text) ip r0 n v : num_ok e r0 ->
  let hd := match ifc with None => [] | Some n => n ++ L ":" end in
  let t := hd ++ ip ++ r0 in
  (check (negb (Nat.eqb (List.length (hd ++ ip)) (List.length t))) ;;
  let* c := rd t (List.length (hd ++ ip)) in
  check (ceq c "/") ;;
  let* (lenPort, _) := parseNumber e FmtString 0 false (skipn (S (List.length (hd ++ ip))) t) in
  cisco_rest e want t (S (List.length (hd ++ ip)) + lenPort) (match ifc with None => None | Some n => Some (List.length n) end)
     (List.length hd) (List.length ip) (S (List.length (hd ++ ip))) lenPort) = Ok (n, v) <->
  exists port r1 sec us r2 post, r0 = L "/" ++ port ++ r1 /\ port <> [] /\ max_run digit port r1 /\
    (r1 = second_text sec ++ r2 /\ match sec with Some x => second_at r1 x r2 | None => forall x r, ~ second_at r1 x r end) /\
    (r2 = user_text us ++ post /\ match us with Some x => user_at r2 x post | None => forall x r, ~ user_at r2 x r end) /\
    n = List.length (hd ++ ip ++ L "/" ++ port ++ second_text sec ++ user_text us) /\
    v = if want then cisco_value {| c_iface := ifc; c_ip := ip; c_port := port; c_second := sec; c_user := us |} else JNull.
Proof.
  intros HL hd t. unfold t. clear t.
  assert (Hlen : List.length (hd ++ ip ++ r0) = List.length (hd ++ ip) + List.length r0) by (rewrite !app_length; lia).
  rewrite Hlen. destruct r0 as [|c r0].
  { destruct (Nat.eqb_spec (List.length (hd ++ ip)) (List.length (hd ++ ip) + List.length (@nil ascii))) as [_|HH]; [|cbn in HH; lia]. cbn [negb].
    split; [discriminate|]. intros (port & r1 & sec & us & r2 & post & H & _). discriminate. }
  destruct (Nat.eqb_spec (List.length (hd ++ ip)) (List.length (hd ++ ip) + List.length (c :: r0))) as [HH|_]; [cbn in HH; lia|]. cbn [negb].
  rewrite (app_assoc hd ip). rewrite rd_app1 by reflexivity. cbn [bind]. destruct (ceq c "/") eqn:Ec.
  2: { apply ceq_false in Ec. split; [discriminate|]. intros (port & r1 & sec & us & r2 & post & H & _). injection H as -> _. congruence. }
  apply ceq_true in Ec. subst c.
  replace (skipn (S (List.length (hd ++ ip))) ((hd ++ ip) ++ "/"%char :: r0)) with r0
    by (replace (S (List.length (hd ++ ip))) with (List.length (hd ++ ip) + 1) by lia; rewrite skipn_at; reflexivity).
  assert (HL2 : num_ok e r0) by (eapply (num_ok_sfx e _ r0 ["/"%char]); [exact HL|reflexivity]).
  assert (HN : forall port r1, r0 = port ++ r1 -> port <> [] -> max_run digit port r1 -> forall p q, r0 = p ++ q -> p <> [] -> max_run digit p q -> port = p /\ r1 = q).
  { intros port r1 H1 _ [Hm1 Hm2] p q H2 _ [Hm3 Hm4]. assert (HSc : List.length port = List.length p).
    { rewrite <- (scan_run isdigit port r1), <- (scan_run isdigit p q); [rewrite <- H1, <- H2; reflexivity| | | |].
      - eapply Forall_impl; [|exact Hm3]. intros w Hw. apply isdigit_iff. exact Hw.
      - intros w z Hw. apply isdigit_not. eapply Hm4. exact Hw.
      - eapply Forall_impl; [|exact Hm1]. intros w Hw. apply isdigit_iff. exact Hw.
      - intros w z Hw. apply isdigit_not. eapply Hm2. exact Hw. }
    rewrite H1 in H2. apply app_len_inj in H2; [exact H2|exact HSc]. }
  destruct (tryn e r0 HL2) as [(port & r1 & Hr0 & Hp & Hm & E)|(Hno & k & E)]; rewrite E; cbn [bind].
  2: { split; [discriminate|]. intros (port & r1 & sec & us & r2 & post & H & Hp & Hm & _). injection H as H. exfalso. apply (Hno port r1 H Hp). apply Hm. }
  assert (HL3 : num_ok e r1) by (eapply (num_ok_sfx e r0 r1 port); [exact HL2|exact Hr0]).
  destruct (rest_exact4 e want ifc ip port r1 HL3) as (sec & us & r2 & post & HS & HU & HR). fold hd in HR.
  assert (HE : cisco_rest e want ((hd ++ ip) ++ "/"%char :: r0) (S (List.length (hd ++ ip)) + List.length port) (match ifc with None => None | Some n => Some (List.length n) end)
     (List.length hd) (List.length ip) (S (List.length (hd ++ ip))) (List.length port) = Ok (List.length (hd ++ ip ++ L "/" ++ port ++ second_text sec ++ user_text us),
        if want then cisco_value {| c_iface := ifc; c_ip := ip; c_port := port; c_second := sec; c_user := us |} else JNull)).
  { rewrite <- HR. rewrite Hr0. f_equal; [rewrite <- !app_assoc; reflexivity|rewrite !app_length; cbn [L list_ascii_of_string List.length]; lia|rewrite !app_length; cbn [L list_ascii_of_string List.length]; lia]. }
  rewrite HE. split.
  - intros H. exists port, r1, sec, us, r2, post. split; [rewrite Hr0; reflexivity|]. split; [exact Hp|]. split; [exact Hm|]. split; [exact HS|]. split; [exact HU|]. split; congruence.
  - intros (port' & r1' & sec' & us' & r2' & post' & H & Hp' & Hm' & HS' & HU' & -> & ->). injection H as H.
    destruct (HN port r1 Hr0 Hp Hm port' r1' H Hp' Hm') as [<- <-].
    assert (HQ : sec = sec' /\ r2 = r2').
    { destruct HS as [HS1 HS], HS' as [HS1' HS']. destruct sec as [x|], sec' as [x'|].
      - destruct (second_unique _ _ _ _ _ HS HS') as [-> ->]. auto.
      - exfalso. apply (HS' _ _ HS).
      - exfalso. apply (HS _ _ HS').
      - cbn in HS1, HS1'. split; congruence. }
    destruct HQ as [<- <-].
    assert (HQ : us = us').
    { destruct HU as [HU1 HU], HU' as [HU1' HU']. destruct us as [x|], us' as [x'|].
      - destruct (user_unique _ _ _ _ _ HU HU') as [-> ->]. auto.
      - exfalso. apply (HU' _ _ HU).
      - exfalso. apply (HU _ _ HU').
      - reflexivity. }
    subst us'. reflexivity.
Qed.

Lemma ipv4_first pre post : ipv4_g pre post -> exists c r, pre = c :: r /\ digit c.
Proof.
  intros (a & b & c & d & -> & (H1 & H2 & _) & _). destruct a as [|x a]; [cbn in H1; lia|].
  exists x. eexists. split; [reflexivity|]. apply Forall_inv in H2. exact H2.
Qed.
Lemma ipv4_unique p q p' q' : p ++ q = p' ++ q' -> ipv4_g p q -> ipv4_g p' q' -> p = p' /\ q = q'.
Proof.
  intros HE H H'. apply app_len_inj; [exact HE|].
  assert (E1 : parseIPv4 false (p ++ q) = Ok (List.length p, JNull)) by (apply (ipv4_exact false); exists p, q; auto).
  assert (E2 : parseIPv4 false (p ++ q) = Ok (List.length p', JNull)) by (apply (ipv4_exact false); exists p', q'; auto).
  rewrite E1 in E2. injection E2 as E2. exact E2.
Qed.

Lemma digit_no : forall c, implb (isdigit c) (negb (ceq c ":" || isspace c)) = true. Proof. sweep. Qed.
(** ** The whole field *)
Theorem cisco_exact e want t n v : num_ok e t ->
  parseCisco e want t = Ok (n, v) <->
  exists s pre post, t = pre ++ post /\ n = List.length pre /\ cisco_g s t post /\ v = if want then cisco_value s else JNull.
Proof.
  intros HL. rewrite cisco_unfold. cbv zeta.
  destruct t as [|c t].
  { split; [discriminate|]. intros (s & pre & post & Ht & _ & (r1 & r2 & H & _ & H4 & _) & _).
    apply ipv4_first in H4. destruct H4 as (x & r & Hx & _). rewrite Hx in H. destruct (c_iface s) as [[|]|]; discriminate. }
  remember (c :: t) as T eqn:HT. assert (Hrd : rd T 0 = Ok c) by (rewrite HT; reflexivity). rewrite Hrd. cbn [bind].
  destruct (ceq c ":" || isspace c)%bool eqn:Ec; cbn [negb].
  { split; [discriminate|]. intros H0. exfalso. destruct H0 as (s & pre & post & Ht & _ & (r1 & r2 & H & Hi & H4 & _) & _).
    apply ipv4_first in H4. destruct H4 as (x & r & Hip & Hx). rewrite HT in H. destruct (c_iface s) as [[|y m]|].
    - destruct Hi as [Hi _]. congruence.
    - injection H as -> _. destruct Hi as (_ & HF & _). apply Forall_inv in HF. apply orb_true_iff in Ec. rewrite ceq_true, isspace_iff in Ec. tauto.
    - rewrite Hip in H. injection H as -> _. apply isdigit_iff in Hx. pose proof (digit_no x) as G. rewrite Hx, Ec in G. discriminate. }
  destruct (try4 T) as [(ip & r0 & HE & H4 & E)|(Hno & k & E)]; rewrite E; cbn [try_len bind].
  - pose proof (ipv4_len _ _ H4) as Hl.
    destruct (Nat.eqb_spec (List.length ip - 1) (List.length T)) as [HH|_]; [rewrite HE, app_length in HH; lia|]. cbn [negb bind].
    replace (S (List.length ip - 1)) with (List.length ip) by lia.
    assert (HL2 : num_ok e r0) by (eapply num_ok_sfx; [exact HL|exact HE]).
    pose proof (cisco_port e want None ip r0 n v HL2) as HP. cbn [app] in HP. rewrite HE. etransitivity; [exact HP|]. clear HP. split.
    + intros (port & r1 & sec & us & r2 & post & -> & Hp & Hm & HS & HU & Hn & Hv).
      eexists. exists (ip ++ L "/" ++ port ++ second_text sec ++ user_text us), post. split.
      { rewrite (proj1 HS), (proj1 HU), <- !app_assoc. reflexivity. }
      split; [exact Hn|]. split; [|exact Hv].
      exists r1, r2. cbn [c_iface c_ip c_port c_second c_user]. split; [reflexivity|]. split; [exact I|]. split; [eapply ipv4_hd; exact H4|]. auto.
    + intros (s & pre & post & Ht & Hn & (r1 & r2 & H & Hi & H4' & Hp & Hm & HS & HU) & Hv).
      destruct s as [ifc ip' port sec us]. cbn [c_iface c_ip c_port c_second c_user] in *.
      destruct ifc as [m|]. { exfalso. destruct Hi as (_ & _ & Hi). apply Hi. exists ip, r0. auto. }
      cbn [app] in H. apply ipv4_unique in H; [|exact H4|eapply ipv4_hd; exact H4']. destruct H as [<- ->].
      exists port, r1, sec, us, r2, post. split; [reflexivity|]. do 4 (split; [assumption|]). split; [|exact Hv].
      rewrite Hn. f_equal. rewrite (proj1 HS), (proj1 HU) in Ht. apply (app_inv_tail post). rewrite <- Ht, <- !app_assoc. reflexivity.
  - assert (HIF : forall s post, cisco_g s T post -> exists m, c_iface s = Some m /\ cisco_iface T 0 = Ok (List.length m)).
    { intros s post (r1 & r2 & H & Hi & H4 & _). destruct (c_iface s) as [m|].
      - exists m. split; [reflexivity|]. apply iface_spec. exists m. split; [apply Hi|]. split; [reflexivity|]. right. eexists. rewrite H, <- !app_assoc. reflexivity.
      - exfalso. apply Hno. exists (c_ip s), (L "/" ++ c_port s ++ r1). split; [exact H|]. cbn [L list_ascii_of_string app]. eapply ipv4_hd. exact H4. }
    destruct (cisco_iface T 0) as [i|k'|u] eqn:EI; cbn [bind].
    2, 3: split; [discriminate|]; intros (s & pre & post & _ & _ & HG & _); destruct (HIF s post HG) as (m & _ & HH); discriminate HH.
    apply iface_spec in EI. destruct EI as (m & HF & -> & HTm). cbn [Nat.add].
    destruct HTm as [HTm|[r HTm]].
    { rewrite HTm at 1. rewrite Nat.eqb_refl. cbn [negb]. split; [discriminate|]. intros (s & pre & post & _ & _ & HG & _). exfalso.
      destruct (HIF s post HG) as (m' & Hi & [= HH]). destruct HG as (r1 & r2 & H & _). rewrite Hi in H. rewrite HTm in H. apply (f_equal (@List.length _)) in H.
      rewrite !app_length in H. cbn [L list_ascii_of_string List.length] in H. lia. }
    destruct (Nat.eqb_spec (List.length m) (List.length T)) as [HH|_]; [rewrite HTm, !app_length in HH; cbn [L list_ascii_of_string List.length] in HH; lia|]. cbn [negb].
    assert (Hm : m <> []).
    { intros ->. rewrite HT in HTm. injection HTm as HTm _. subst c. discriminate. }
    assert (HTm2 : T = (m ++ L ":") ++ r) by (rewrite <- app_assoc; exact HTm).
    assert (Hlm : S (List.length m) = List.length (m ++ L ":")) by (rewrite app_length; cbn; lia).
    rewrite Hlm. replace (skipn (List.length (m ++ L ":")) T) with r by (rewrite HTm2; symmetry; apply skipn_app_exact).
    assert (HIF2 : forall s post, cisco_g s T post -> c_iface s = Some m /\ exists r1, r = c_ip s ++ L "/" ++ c_port s ++ r1).
    { intros s post HG. destruct (HIF s post HG) as (m' & Hi & [= HH]). destruct HG as (r1 & r2 & H & _). rewrite Hi in H. rewrite HTm2 in H.
      apply app_len_inj in H; [|rewrite !app_length; lia]. destruct H as [H ->]. apply app_inv_tail in H. subst m'. split; [exact Hi|]. eauto. }
    destruct (try4 r) as [(ip & r0 & HE & H4 & E2)|(Hno2 & k2 & E2)]; rewrite E2; cbn [bind].
    2: { split; [discriminate|]. intros (s & pre & post & _ & _ & HG & _). exfalso. destruct (HIF2 s post HG) as (_ & r1 & Hr). apply Hno2.
         destruct HG as (r1' & r2' & _ & _ & H4 & _). eexists _, _. split; [exact Hr|]. cbn [L list_ascii_of_string app]. eapply ipv4_hd. exact H4. }
    assert (HL4 : S (List.length m + List.length ip) = List.length ((m ++ L ":") ++ ip)) by (rewrite !app_length; cbn [L list_ascii_of_string List.length]; lia).
    rewrite HL4.
    assert (HL2 : num_ok e r0) by (eapply (num_ok_sfx e T r0 ((m ++ L ":") ++ ip)); [exact HL|rewrite HTm2, HE, <- !app_assoc; reflexivity]).
    pose proof (cisco_port e want (Some m) ip r0 n v HL2) as HP. cbv zeta in HP.
    assert (HT3 : T = (m ++ L ":") ++ ip ++ r0) by (rewrite HTm2, HE; reflexivity).
    rewrite HT3. etransitivity; [exact HP|]. clear HP. split.
    + intros (port & r1 & sec & us & r2 & post & -> & Hp & Hmr & HS & HU & Hn & Hv).
      eexists. exists ((m ++ L ":") ++ ip ++ L "/" ++ port ++ second_text sec ++ user_text us), post. split.
      { rewrite (proj1 HS), (proj1 HU), <- !app_assoc. reflexivity. }
      split; [exact Hn|]. split; [|exact Hv].
      exists r1, r2. cbn [c_iface c_ip c_port c_second c_user]. split; [reflexivity|]. split; [split; [exact Hm|]; split; [exact HF|]; rewrite <- HT3; exact Hno|]. split; [eapply ipv4_hd; exact H4|]. auto.
    + intros (s & pre & post & Ht & Hn & HG & Hv). rewrite <- HT3 in HG. destruct (HIF2 s post HG) as (Hi & _).
      destruct HG as (r1 & r2 & H & _ & H4' & Hp & Hmr & HS & HU).
      destruct s as [ifc ip' port sec us]. cbn [c_iface c_ip c_port c_second c_user] in *. subst ifc.
      rewrite HT3 in H. apply app_inv_head in H. apply ipv4_unique in H; [|exact H4|eapply ipv4_hd; exact H4']. destruct H as [<- ->].
      exists port, r1, sec, us, r2, post. split; [reflexivity|]. do 4 (split; [assumption|]). split; [|exact Hv].
      rewrite Hn. f_equal. rewrite (proj1 HS), (proj1 HU) in Ht. apply (app_inv_tail post). rewrite <- Ht, <- !app_assoc. reflexivity.
Qed.
