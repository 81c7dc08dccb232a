(** * C75-C78: the v1 field types that apply other types or rules to the rest of the message:
    tokenized, interpret, suffixed and named_suffixed, recursive and descent.
    The specification is in V1SubSpec. A message is [before ++ t]; the field is tried behind
    [before]. [nf] bounds the depth to which fields are nested. *)
From Verif Require Import Base BaseFacts Parsers FieldSpec FieldFacts DateFacts Engine Pdag Samp TestEnv EncFacts V1 V1Spec V1Facts V1Add V1Match V1Load V1Top V1SubSpec V1SubFacts V1SubFacts2 V1SubFacts3 V1SubFacts4.

Local Open Scope list_scope.

(** ** C75: tokenized:SEPARATOR:TYPE

    The value is the list of the values of the items; the field ends where the list does. *)
Theorem C75_tokenized_list : forall e, unescape e [] = [] -> forall nf self f sep0 sep1 sep d fd before t,
  vf_kind f = KTokenized -> vf_raw f = Some (sep0 ++ L ":" ++ d) -> arg sep0 -> clean d ->
  unesc e sep0 sep1 -> unesc e sep1 sep -> sep <> [] ->
  content e d fd -> ~ In (vf_kind fd) [KRecursive; KDescent; KIptables] -> clean t -> t <> [] -> forall o v,
  run_field e (S nf) self (before ++ t) f (List.length before) = Ok (o, v) <->
  exists vs u, tokens (item e nf fd) (no_item e nf fd) sep t vs u /\ v = JArr vs /\ o + List.length u = List.length before + List.length t.
Proof. exact tokenized_exact. Qed.
Print Assumptions C75_tokenized_list.

(** It does not match if there is no first item; at the end of the message it is the empty list. *)
Theorem C75_tokenized_fails : forall e, unescape e [] = [] -> forall nf self f sep0 sep1 sep d fd before t,
  vf_kind f = KTokenized -> vf_raw f = Some (sep0 ++ L ":" ++ d) -> arg sep0 -> clean d ->
  unesc e sep0 sep1 -> unesc e sep1 sep -> sep <> [] ->
  content e d fd -> ~ In (vf_kind fd) [KRecursive; KDescent; KIptables] -> clean t -> t <> [] ->
  (exists k, run_field e (S nf) self (before ++ t) f (List.length before) = Bad k) <-> no_item e nf fd t.
Proof.
  intros e Hue nf self f sep0 sep1 sep d fd before t HK HR HS HD H1 H2 HE HC HF HT Ht.
  assert (HF' : vf_kind fd <> KRecursive /\ vf_kind fd <> KDescent /\ vf_kind fd <> KIptables) by (repeat split; intros X; apply HF; rewrite X; cbn; auto).
  destruct HF' as (F1 & F2 & F3). change (vf_raw f = Some (sep0 ++ ":"%char :: d)) in HR.
  rewrite (run_tok e nf self f sep (L "tail") true (one_field fd)) by (auto; eapply cons_tok_ok; eauto).
  rewrite dloop; auto; [|eapply content_name; eauto|apply H2]. rewrite no_item_dstep, <- (gloop_bad (dstep e nf fd) sep t Ht).
  split; intros (k & H).
  - destruct (gloop _ _ _ _ _) as [[n l]|k'|u]; try discriminate. eauto.
  - rewrite H. exists k. reflexivity.
Qed.
Print Assumptions C75_tokenized_fails.

Theorem C75_tokenized_at_end : forall e, unescape e [] = [] -> forall nf self f sep0 sep1 sep d fd before,
  vf_kind f = KTokenized -> vf_raw f = Some (sep0 ++ L ":" ++ d) -> arg sep0 -> clean d ->
  unesc e sep0 sep1 -> unesc e sep1 sep -> content e d fd -> ~ In (vf_kind fd) [KRecursive; KDescent; KIptables] ->
  run_field e (S nf) self before f (List.length before) = Ok (List.length before, JArr []).
Proof.
  intros e Hue nf self f sep0 sep1 sep d fd before HK HR HS HD H1 H2 HC HF.
  assert (HF' : vf_kind fd <> KRecursive /\ vf_kind fd <> KDescent) by (split; intros X; apply HF; rewrite X; cbn; auto). destruct HF' as (F1 & F2). change (vf_raw f = Some (sep0 ++ ":"%char :: d)) in HR.
  rewrite <- (app_nil_r before) at 1.
  rewrite (run_tok e nf self f sep (L "tail") true (one_field fd)) by (auto; eapply cons_tok_ok; eauto).
  cbn [tok_loop List.length bind]. rewrite Nat.add_0_r. destruct (Z.ltb_spec (Z.of_nat (List.length before) - Z.of_nat 0) 0); [lia|]. do 2 f_equal. lia.
Qed.
Print Assumptions C75_tokenized_at_end.

(** With recursive or descent as the type, the items are objects: what the rules make of the
    text, without the member [rem] that holds the rest of it. *)
Theorem C75_tokenized_objects : forall e, unescape e [] = [] -> forall qs nf lc f sep0 sep1 sep d fd rem lc2 before t,
  c_version (l_ctx lc) = 1%N -> vf_kind f = KTokenized -> vf_raw f = Some (sep0 ++ L ":" ++ d) -> arg sep0 -> clean d ->
  unesc e sep0 sep1 -> unesc e sep1 sep -> sep <> [] -> content e d fd -> rules_of e qs (S nf) lc fd rem lc2 ->
  (forall t v u, object e nf lc2 rem t v u -> List.length u <= List.length t) -> t <> [] -> forall o v,
  run_field e (S nf) (vctx_of lc) (before ++ t) f (List.length before) = Ok (o, v) <->
  exists vs u, tokens (object e nf lc2 rem) (no_object e nf lc2) sep t vs u /\ v = JArr vs /\ o + List.length u = List.length before + List.length t.
Proof. intros e Hue. exact (tokenized_objects e). Qed.
Print Assumptions C75_tokenized_objects.

(** For instance, a list of numbers. *)
Fixpoint joined (sep : text) (l : list text) : text :=
  match l with [] => [] | [x] => x | x :: l' => x ++ sep ++ joined sep l' end.
Lemma content_number e fd : fd = {| vf_name := L "default"; vf_kind := KNumber; vf_data := None; vf_raw := None |} -> content e (L "number") fd.
Proof.
  intros ->. apply (ft_plain e [] (L "default") "number" [] KNumber); try apply Forall_nil; try discriminate; try reflexivity.
  - cbn. intros X. repeat (destruct X as [X|X]; [discriminate|]). exact X.
  - cbn. tauto.
Qed.
Lemma number_item e nf ds r : ds <> [] -> all_digits ds -> (forall c w, r = c :: w -> ~ digit c) -> clean (ds ++ r) ->
  item e nf {| vf_name := L "default"; vf_kind := KNumber; vf_data := None; vf_raw := None |} (ds ++ r) (JStr ds) r.
Proof.
  intros H1 H2 H3 HN. set (fd := {| vf_name := L "default"; vf_kind := KNumber; vf_data := None; vf_raw := None |}). split; [destruct ds; [congruence|discriminate]|].
  exists (List.length ds). split; [|rewrite skipn_lapp; reflexivity]. rewrite run_plain by reflexivity. unfold run_v1. cbn [vf_kind fd]. rewrite skipn_O. unfold vtext, v1_number.
  assert (E : scan isdigit (ds ++ r) = List.length ds).
  { apply scan_app.
    - eapply Forall_impl; [|exact H2]. intros c. apply isdigit_iff.
    - intros c w E. destruct (isdigit c) eqn:EC; [|reflexivity]. apply isdigit_iff in EC. exfalso. exact (H3 _ _ E EC). }
  rewrite E. destruct ds as [|c ds]; [congruence|]. set (D := c :: ds) in *. change (Nat.eqb (List.length D) 0) with false. cbn [negb bind Nat.add].
  rewrite firstn_pre. rewrite AnnotFacts.cstr_id; [reflexivity|]. intros X. apply HN. apply in_or_app. left. exact X.
Qed.
Theorem C75_tokenized_numbers : forall e, unescape e [] = [] -> forall nf self f sep before nums post,
  vf_kind f = KTokenized -> vf_raw f = Some (sep ++ L ":number") -> arg sep -> unescape e sep = sep -> sep <> [] -> (forall c w, sep = c :: w -> ~ digit c) ->
  nums <> [] -> Forall (fun n => n <> [] /\ all_digits n) nums -> clean post ->
  (forall c w, post = c :: w -> ~ digit c) -> (forall w, post <> sep ++ w) ->
  run_field e (S nf) self (before ++ joined sep nums ++ post) f (List.length before) =
    Ok (List.length before + List.length (joined sep nums), JArr (map JStr nums)).
Proof.
  intros e Hue nf self f sep before nums post HK HR HS HU HE HSD Hn HD HP HPD HPS. destruct HS as (HS1 & HS2).
  set (fd := {| vf_name := L "default"; vf_kind := KNumber; vf_data := None; vf_raw := None |}).
  assert (HND : forall n, all_digits n -> ~ In NUL n).
  { intros n H X. unfold all_digits in H. rewrite Forall_forall in H. specialize (H _ X). apply isdigit_iff in H. discriminate. }
  assert (HJ : forall l, Forall (fun n => n <> [] /\ all_digits n) l -> clean (joined sep l ++ post)).
  { induction l as [|n l IH]; intros H; [exact HP|]. apply Forall_cons_iff in H. destruct H as ((_ & H1) & H2). specialize (IH H2). unfold clean in *.
    destruct l as [|m l].
    - cbn [joined]. intros X. apply in_app_or in X. destruct X as [X|X]; [exact (HND _ H1 X)|exact (HP X)].
    - change (joined sep (n :: m :: l)) with (n ++ sep ++ joined sep (m :: l)). rewrite <- !app_assoc. intros X. apply in_app_or in X. destruct X as [X|X]; [exact (HND _ H1 X)|]. apply in_app_or in X. tauto. }
  assert (HK2 : forall l, l <> [] -> Forall (fun n => n <> [] /\ all_digits n) l -> tokens (item e nf fd) (no_item e nf fd) sep (joined sep l ++ post) (map JStr l) post).
  { induction l as [|n l IH]; intros Hl H; [congruence|]. assert (HC := HJ _ H). apply Forall_cons_iff in H. destruct H as ((H0 & H1) & H2). destruct l as [|m l].
    - cbn [joined map] in *. apply tk_last; [|exact HPS]. apply number_item; auto.
    - change (joined sep (n :: m :: l)) with (n ++ sep ++ joined sep (m :: l)) in *. rewrite <- !app_assoc in *. change (map JStr (n :: m :: l)) with (JStr n :: map JStr (m :: l)).
      eapply tk_more; [|apply IH; [discriminate|exact H2]]. apply number_item; auto. intros c w E. destruct sep as [|s0 sep']; [congruence|]. injection E as <- _. apply (HSD _ _ eq_refl). }
  assert (HT : joined sep nums ++ post <> []).
  { destruct nums as [|n l]; [congruence|]. apply Forall_cons_iff in HD. destruct HD as ((H0 & _) & _). destruct n; [congruence|]. destruct l; discriminate. }
  apply (C75_tokenized_list e Hue nf self f sep sep sep (L "number") fd before (joined sep nums ++ post)); auto.
  - split; auto.
  - intros X. cbn in X. repeat (destruct X as [X|X]; [discriminate|]). exact X.
  - split; auto.
  - split; auto.
  - apply content_number. reflexivity.
  - cbn. intuition discriminate.
  - exists (map JStr nums), post. split; [apply HK2; auto|]. split; [reflexivity|]. rewrite app_length. lia.
Qed.
Print Assumptions C75_tokenized_numbers.

(** ** C76: interpret:AS:TYPE *)
Theorem C76_interpret : forall e, unescape e [] = [] -> forall nf self f ty d fd before t s u,
  In ty ["int"; "base10int"; "base16int"; "float"; "bool"]%string ->
  vf_kind f = KInterpret -> vf_raw f = Some (L ty ++ L ":" ++ d) -> clean d -> content e d fd -> vf_kind fd <> KIptables -> clean t ->
  item e nf fd t (JStr s) u -> clean s -> forall o v,
  run_field e (S nf) self (before ++ t) f (List.length before) = Ok (o, v) <->
  o + List.length u = List.length before + List.length t /\ interpreted ty s v.
Proof.
  intros e Hue nf self f ty d fd before t s u HI HK HR HD HC HF HN HT HS o v.
  assert (HY : exists it, ity ty = Some it) by (destruct HI as [<-|[<-|[<-|[<-|[<-|[]]]]]]; eexists; reflexivity). destruct HY as (it & HY).
  assert (HL : List.length u <= List.length t) by (destruct HT as (_ & n & _ & ->); rewrite skipn_length; lia).
  split.
  - intros H. destruct (interpreted_total ty s it HY HI) as (v' & HV). rewrite (interpret_ok e Hue nf self f ty it d fd before t s u v') in H by auto. injection H as <- <-. split; [lia|exact HV].
  - intros (EO & HV). rewrite (interpret_ok e Hue nf self f ty it d fd before t s u v) by auto. do 2 f_equal. lia.
Qed.
Print Assumptions C76_interpret.

(** If the content does not match, the field takes the empty text. *)
Theorem C76_interpret_no_content : forall e, unescape e [] = [] -> forall nf self f ty d fd before t,
  In ty ["int"; "base10int"; "base16int"; "float"; "bool"]%string ->
  vf_kind f = KInterpret -> vf_raw f = Some (L ty ++ L ":" ++ d) -> clean d -> content e d fd -> vf_kind fd <> KIptables -> clean t ->
  no_item e nf fd t -> run_field e (S nf) self (before ++ t) f (List.length before) = Ok (List.length before, JStr []).
Proof.
  intros e Hue nf self f ty d fd before t HI HK HR HD HC HF HN HT.
  assert (HY : exists it, ity ty = Some it) by (destruct HI as [<-|[<-|[<-|[<-|[<-|[]]]]]]; eexists; reflexivity). destruct HY as (it & HY).
  eapply (interpret_none e Hue nf self f ty it d fd); auto.
Qed.
Print Assumptions C76_interpret_no_content.

(** ** C77: suffixed, named_suffixed *)
Theorem C77_suffixed : forall e, unescape e [] = [] -> forall nf self f vn sn l fd before t v u s w,
  suf_args e f vn sn l fd -> vn <> sn -> vf_kind fd <> KIptables -> clean t ->
  item e nf fd t v u -> u <> [] -> first_prefix l u s w ->
  run_field e (S nf) self (before ++ t) f (List.length before) = Ok (List.length before + List.length t - List.length w, JObj [(vn, v); (sn, JStr s)]).
Proof. intros. eapply suffixed_ok; eauto. Qed.
Print Assumptions C77_suffixed.
Theorem C77_no_suffix : forall e, unescape e [] = [] -> forall nf self f vn sn l fd before t,
  suf_args e f vn sn l fd -> l <> [] -> vf_kind fd <> KIptables -> clean t ->
  no_item e nf fd t \/ (exists v u, item e nf fd t v u /\ u <> [] /\ no_prefix l u) ->
  run_field e (S nf) self (before ++ t) f (List.length before) = Ok (List.length before, JStr []).
Proof. intros. eapply suffixed_none; eauto. Qed.
Print Assumptions C77_no_suffix.

(** ** C78: recursive, descent *)
Theorem C78_rest_by_rules : forall e qs nf lc f rem lc2 before t js v u,
  c_version (l_ctx lc) = 1%N -> rules_of e qs (S nf) lc f rem lc2 ->
  normalized e nf lc2 t js -> ~ unmatched js -> rest_object rem js v u -> List.length u <= List.length before + List.length t ->
  run_field e (S nf) (vctx_of lc) (before ++ t) f (List.length before) = Ok (List.length before + List.length t - List.length u, v).
Proof. exact recursive_ok. Qed.
Print Assumptions C78_rest_by_rules.
Theorem C78_no_rule : forall e qs nf lc f rem lc2 before t js,
  c_version (l_ctx lc) = 1%N -> rules_of e qs (S nf) lc f rem lc2 -> normalized e nf lc2 t js -> unmatched js ->
  run_field e (S nf) (vctx_of lc) (before ++ t) f (List.length before) = Ok (List.length before, JStr []).
Proof. exact recursive_none. Qed.
Print Assumptions C78_no_rule.
Theorem C78_misbehaviour : forall e qs nf lc f rem lc2 before t w,
  c_version (l_ctx lc) = 1%N -> rules_of e qs (S nf) lc f rem lc2 -> l_normalize e nf lc2 t [] = EUb w ->
  run_field e (S nf) (vctx_of lc) (before ++ t) f (List.length before) = Ub w.
Proof. exact recursive_ub. Qed.
Print Assumptions C78_misbehaviour.

(** ** Examples *)
Local Open Scope string_scope.
Local Open Scope list_scope.

Definition hexv (c : ascii) : N := let n := N_of_ascii c in if N.ltb n 58 then n - 48 else n - 87.
(** A stand-in for es_unescapeStr: \xHH only. *)
Fixpoint unx (f : nat) (t : text) : text :=
  match f with
  | O => t
  | S f => match t with
           | "\"%char :: "x"%char :: a :: b :: r => ascii_of_N (hexv a * 16 + hexv b) :: unx f r
           | c :: r => c :: unx f r
           | [] => []
           end
  end.
Definition env_s (fs : text -> option text) : env :=
  {| wraps := false; asserts_on := false; char_signed := true; cur_year := 2026; json_tok := tok0; json_show := fun _ => []; json_num := fun _ => 0%Z; json_erroff := fun _ => 0;
     unescape := fun t => unx 100 t; files := fs |}.
Definition run_s (fs : text -> option text) (m : string) : er (bool * fields) :=
  do* (lc, ok) := l_loadFile (env_s fs) isort 200 (l_init no_opts) (L "f") in
  do* (ok, js, _) := l_normalize (env_s fs) 30 lc (L m) [] in EOk (ok, js).
Definition one_file (l : list string) : text -> option text := fun f => if text_eqb f (L "f") then Some (lines l) else None.
Definition S' (s : string) : json := JStr (L s).

(** Rulebases and messages of the test suite (tests/field_tokenized.sh, field_suffixed.sh,
    field_interpret.sh, field_recursive.sh, field_tokenized_recursive.sh, field_descent.sh). *)
Example C75_suite :
  run_s (one_file ["rule=:%arr:tokenized: , :word% %more:rest%"]) "123 , abc , 456 , def ijk789" =
    EOk (true, [(L "more", S' "ijk789"); (L "arr", JArr [S' "123"; S' "abc"; S' "456"; S' "def"])]) /\
  run_s (one_file ["rule=:comma: %some_nos:tokenized:, :tokenized: \x3a :tokenized:#:number%"]) "comma: 10, 20 : 30#40#50 : 60#70#80, 90 : 100" =
    EOk (true, [(L "some_nos", JArr [JArr [JArr [S' "10"]]; JArr [JArr [S' "20"]; JArr [S' "30"; S' "40"; S' "50"]; JArr [S' "60"; S' "70"; S' "80"]]; JArr [JArr [S' "90"]; JArr [S' "100"]]])]) /\
  run_s (one_file ["rule=:%subnet_addr:ipv4%/%subnet_mask:number%%tail:rest%"; "rule=:%ip_addr:ipv4%%tail:rest%"; "rule=:blocked inbound via: %via_ip:ipv4% from: %addresses:tokenized:, :recursive% to %server_ip:ipv4%"])
    "blocked inbound via: 192.168.1.1 from: 1.2.3.4, 5.6.16.0/12, 8.9.10.11 to 192.168.1.5" =
    EOk (true, [(L "server_ip", S' "192.168.1.5"); (L "addresses", JArr [JObj [(L "ip_addr", S' "1.2.3.4")]; JObj [(L "subnet_mask", S' "12"); (L "subnet_addr", S' "5.6.16.0")]; JObj [(L "ip_addr", S' "8.9.10.11")]]); (L "via_ip", S' "192.168.1.1")]).
Proof. repeat split; vm_compute; reflexivity. Qed.
Example C76_suite :
  run_s (one_file ["rule=:shard [%shard:interpret:base16int:char-to:]%] is %record_count:interpret:base10int:number% and %latency_percentile:interpret:float:char-to:\x25%\x25ile latency is %latency:interpret:float:word% %latency_unit:word%"])
    "shard [3F] is 50000 and 99.99%ile latency is 2.1 seconds" =
    EOk (true, [(L "latency_unit", S' "seconds"); (L "latency", JDouble (L "2.1")); (L "latency_percentile", JDouble (L "99.99")); (L "record_count", JInt 50000); (L "shard", JInt 63)]).
Proof. vm_compute. reflexivity. Qed.
Example C77_suite :
  run_s (one_file ["rule=:disk free: %free:named_suffixed:size:unit:\x3a:gb\x3a\x25:interpret:int:number%"]) "disk free: 12%" = EOk (true, [(L "free", JObj [(L "size", JInt 12); (L "unit", S' "%")])]) /\
  run_s (one_file ["rule=:gc reclaimed %eden_free:suffixed:,:b,kb,mb,gb:number% eden [surviver: %surviver_used:suffixed:;:kb;mb;gb;b:number%/%surviver_size:suffixed:|:b|kb|mb|gb:float%]"])
    "gc reclaimed 559mb eden [surviver: 95b/30.2mb]" =
    EOk (true, [(L "surviver_size", JObj [(L "value", S' "30.2"); (L "suffix", S' "mb")]); (L "surviver_used", JObj [(L "value", S' "95"); (L "suffix", S' "b")]); (L "eden_free", JObj [(L "value", S' "559"); (L "suffix", S' "mb")])]).
Proof. split; vm_compute; reflexivity. Qed.
Definition descent_files (f : text) : option text :=
  if text_eqb f (L "f") then Some (lines ["rule=:%op:descent:op:rest% on %device:word%"])
  else if text_eqb f (L "op") then Some (lines ["rule=:%net:descent:alt:remains%%action:word%%rest:rest%"])
  else if text_eqb f (L "alt") then Some (lines ["rule=:%ip_addr:ipv4% %remains:rest%"; "rule=:%subnet_addr:ipv4%/%mask:number% %remains:rest%"]) else None.
Example C78_suite :
  run_s (one_file ["rule=:%word:word% %next:recursive%"; "rule=:%word:word%"]) "123 abc 456" =
    EOk (true, [(L "next", JObj [(L "next", JObj [(L "word", S' "456")]); (L "word", S' "abc")]); (L "word", S' "123")]) /\
  run_s descent_files "10.20.30.40 blocked on gw-1" =
    EOk (true, [(L "device", S' "gw-1"); (L "op", JObj [(L "action", S' "blocked"); (L "net", JObj [(L "ip_addr", S' "10.20.30.40")])])]).
Proof. split; vm_compute; reflexivity. Qed.

(** The hypotheses of the theorems are met by these fields. *)
Definition sfld (nm : string) (k : vkind) (raw : option string) : vfield :=
  {| vf_name := L nm; vf_kind := k; vf_data := option_map (fun s => unx 100 (L s)) raw; vf_raw := option_map L raw |}.
Lemma content_plain e ty k : In (ty, k) vtypes -> content e (L ty) {| vf_name := L "default"; vf_kind := k; vf_data := None; vf_raw := None |}.
Proof.
  intros H. apply (ft_plain e [] (L "default") ty [] k); try apply Forall_nil; try discriminate; try reflexivity; [|exact H].
  cbn. intros X. repeat (destruct X as [X|X]; [discriminate|]). exact X.
Qed.
Lemma content_extra e ty k x : In (ty, k) vtypes -> without "%" x -> content e (L ty ++ L ":" ++ x) {| vf_name := L "default"; vf_kind := k; vf_data := Some (unescape e x); vf_raw := Some x |}.
Proof.
  intros H HX. unfold content.
  assert (E : L "default:" ++ (L ty ++ L ":" ++ x) ++ ["%"%char] = [] ++ L "default" ++ ":"%char :: L ty ++ [] ++ ":"%char :: x ++ ["%"%char]) by (rewrite <- !app_assoc; reflexivity).
  rewrite E. apply ft_extra; try apply Forall_nil; try discriminate; try reflexivity; auto.
  cbn. intros X. repeat (destruct X as [X|X]; [discriminate|]). exact X.
Qed.
Lemma arg_b s : (existsb (ceq ":") (L s) || existsb (ceq NUL) (L s))%bool = false -> arg (L s).
Proof.
  intros H. apply Bool.orb_false_iff in H. destruct H as (H1 & H2). split; intros X.
  - rewrite <- Bool.not_true_iff_false in H1. apply H1. apply existsb_exists. exists ":"%char. split; [exact X|apply ceq_refl].
  - rewrite <- Bool.not_true_iff_false in H2. apply H2. apply existsb_exists. exists NUL. split; [exact X|apply ceq_refl].
Qed.
Lemma clean_b s : existsb (ceq NUL) s = false -> clean s.
Proof. intros H X. rewrite <- Bool.not_true_iff_false in H. apply H. apply existsb_exists. exists NUL. split; [exact X|apply ceq_refl]. Qed.

Definition fs0 : text -> option text := fun _ => None.
Example C75_ex : let f := sfld "a" KTokenized (Some ", :char-to:\x3b") in let fd := sfld "default" KCharTo (Some "\x3b") in
  vf_kind f = KTokenized /\ vf_raw f = Some (L ", " ++ L ":" ++ L "char-to:\x3b") /\ arg (L ", ") /\ clean (L "char-to:\x3b") /\ unesc (env_s fs0) (L ", ") (L ", ") /\
  content (env_s fs0) (L "char-to:\x3b") fd /\ ~ In (vf_kind fd) [KRecursive; KDescent; KIptables] /\ clean (L "a b;, c") /\
  item (env_s fs0) 2 fd (L "a b;, c") (S' "a b") (L ";, c") /\ no_item (env_s fs0) 2 fd (L "c").
Proof.
  cbn zeta. repeat match goal with |- _ /\ _ => split end; try reflexivity.
  - apply arg_b. reflexivity.
  - apply clean_b. reflexivity.
  - split; [reflexivity|apply clean_b; reflexivity].
  - apply (content_extra (env_s fs0) "char-to" KCharTo (L "\x3b")); [cbn; tauto|]. cbn. intros X. repeat (destruct X as [X|X]; [discriminate|]). exact X.
  - cbn. intuition discriminate.
  - apply clean_b. reflexivity.
  - split; [discriminate|]. exists 3. split; vm_compute; reflexivity.
  - right. exists 0. vm_compute. reflexivity.
Qed.
Example C75_ex_numbers : let f := sfld "a" KTokenized (Some ", :number") in
  run_field (env_s fs0) 2 (one_field f) (L "x" ++ joined (L ", ") [L "1"; L "22"; L "0"] ++ L ",7") f 1 = Ok (9, JArr [S' "1"; S' "22"; S' "0"]).
Proof. vm_compute. reflexivity. Qed.

Example C76_ex : interpreted "int" (L " -12a") (JInt (-12)) /\ interpreted "int" (L "a") (JInt 0) /\ interpreted "base16int" (L "0x1Fz") (JInt 31) /\ interpreted "base16int" (L "0xz") (JInt 0) /\
  interpreted "int" (L "99999999999999999999") (JInt (2 ^ 63 - 1)) /\ interpreted "bool" (L "No") (JBool false) /\ interpreted "bool" (L "0") (JBool true).
Proof.
  assert (HI : In "int" ["int"; "base10int"]) by (cbn; auto).
  assert (HD : forall t, forallb isdigit t = true -> all_digits t) by (intros t H; apply Forall_forall; intros c Hc; rewrite forallb_forall in H; apply isdigit_iff; auto).
  assert (HX : forall t, forallb isxdigit t = true -> Forall hexdigit t) by (intros t H; apply Forall_forall; intros c Hc; rewrite forallb_forall in H; apply isxdigit_iff; auto).
  assert (ED : forall c w, isdigit c = false -> ends digit (c :: w)) by (intros c w H x y [= <- <-] X; apply isdigit_iff in X; congruence).
  assert (EX : forall c w, isxdigit c = false -> ends hexdigit (c :: w)) by (intros c w H x y [= <- <-] X; apply isxdigit_iff in X; congruence).
  assert (S0 : sign []) by (left; reflexivity).
  repeat match goal with |- _ /\ _ => split end.
  - apply (in_int "int" _ (-12)%Z _ HI); [|unfold clamped; lia]. exists (L " "), (L "-"), (L "12"), (L "a"). split; [reflexivity|]. split; [constructor; [cbn; auto|constructor]|].
    split; [right; right; reflexivity|]. split; [apply HD; reflexivity|]. split; [apply ED; reflexivity|]. split; [discriminate|reflexivity].
  - apply (in_int "int" _ 0%Z _ HI); [|unfold clamped; lia]. exists [], [], [], (L "a"). split; [reflexivity|]. split; [constructor|].
    split; [exact S0|]. split; [apply HD; reflexivity|]. split; [apply ED; reflexivity|]. split; [|reflexivity].
    intros _ _ c w [= <- _] [X|[X|X]]; [apply isspace_iff in X; discriminate|discriminate|discriminate].
  - apply (in_hex _ 31%Z _); [|unfold clamped; lia]. exists [], [], (L "0x"), (L "1F"), (L "z"). split; [reflexivity|]. split; [constructor|]. split; [exact S0|].
    split; [cbn; auto|]. split; [apply HX; reflexivity|]. split; [apply EX; reflexivity|]. split; [discriminate|]. split; [discriminate|]. split; [discriminate|reflexivity].
  - apply (in_hex _ 0%Z _); [|unfold clamped; lia]. exists [], [], [], (L "0"), (L "xz"). split; [reflexivity|]. split; [constructor|]. split; [exact S0|].
    split; [cbn; auto|]. split; [apply HX; reflexivity|]. split; [apply EX; reflexivity|]. split; [discriminate|]. split; [congruence|]. split; [|reflexivity].
    intros _ _ x c w _ [= _ <- _] X. apply isxdigit_iff in X. discriminate.
  - apply (in_int "int" _ 99999999999999999999%Z _ HI); [|unfold clamped; lia]. exists [], [], (L "99999999999999999999"), []. split; [reflexivity|]. split; [constructor|].
    split; [exact S0|]. split; [apply HD; reflexivity|]. split; [discriminate|]. split; [discriminate|reflexivity].
  - apply in_false. right. reflexivity.
  - apply in_true; discriminate.
Qed.
Example C76_ex_hyps : let f := sfld "a" KInterpret (Some "int:word") in let fd := sfld "default" KWord None in
  vf_raw f = Some (L "int" ++ L ":" ++ L "word") /\ content (env_s fs0) (L "word") fd /\ item (env_s fs0) 1 fd (L "-12a b") (S' "-12a") (L " b") /\ no_item (env_s fs0) 1 fd (L " b") /\
  run_field (env_s fs0) 2 (one_field f) (L "-12a b") f 0 = Ok (4, JInt (-12)).
Proof.
  cbn zeta. repeat match goal with |- _ /\ _ => split end; try reflexivity.
  - exact (content_plain (env_s fs0) "word" KWord ltac:(cbn; tauto)).
  - split; [discriminate|]. exists 4. split; vm_compute; reflexivity.
  - right. exists 0. vm_compute. reflexivity.
Qed.
Example C77_ex : let f := sfld "a" KNamedSuffixed (Some "size:unit:\x3a:b\x3akb:number") in let fd := sfld "default" KNumber None in
  suf_args (env_s fs0) f (L "size") (L "unit") [L "b"; L "kb"] fd /\ item (env_s fs0) 1 fd (L "12kb!") (S' "12") (L "kb!") /\ first_prefix [L "b"; L "kb"] (L "kb!") (L "kb") (L "!") /\ no_prefix [L "b"; L "kb"] (L "mb").
Proof.
  cbn zeta. repeat match goal with |- _ /\ _ => split end; try reflexivity.
  - apply (sa_named _ _ (L "size") (L "unit") (L "\x3a") (L "b\x3akb") (L "number") (L ":") (L "b:kb")); try reflexivity; try (apply arg_b; reflexivity); try (apply clean_b; reflexivity); try (split; [reflexivity|apply clean_b; reflexivity]).
    + apply (ls_more (L ":") [] (L "b") ":"%char [L "kb"] (L "kb")); try apply Forall_nil; try discriminate.
      * repeat constructor; cbn; intuition discriminate.
      * cbn. auto.
      * apply (ls_last (L ":") [] (L "kb")); try apply Forall_nil; try discriminate. repeat constructor; cbn; intuition discriminate.
    + exact (content_plain (env_s fs0) "number" KNumber ltac:(cbn; tauto)).
  - split; [discriminate|]. exists 2. split; vm_compute; reflexivity.
  - exists [L "b"], []. repeat split. intros s' [<-|[]] w; discriminate.
  - intros s [<-|[<-|[]]] w; discriminate.
Qed.
Definition files_d (f : text) : option text := if text_eqb f (L "g") then Some (lines ["rule=:%ip:ipv4% %tail:rest%"; "rule=:%w:word%"]) else None.
Definition loaded_d : lctx := match l_loadFile (env_s files_d) isort 20 (l_init no_opts) (L "g") with EOk (lc, _) => lc | EUb _ => l_init no_opts end.
Example C78_ex : let f := sfld "a" KDescent (Some "g") in
  rules_of (env_s files_d) isort 20 loaded_d f (L "tail") loaded_d /\ c_version (l_ctx loaded_d) = 1%N /\
  normalized (env_s files_d) 19 loaded_d (L "1.2.3.4 x y") [(L "tail", S' "x y"); (L "ip", S' "1.2.3.4")] /\
  rest_object (L "tail") [(L "tail", S' "x y"); (L "ip", S' "1.2.3.4")] (JObj [(L "ip", S' "1.2.3.4")]) (L "x y") /\
  (exists js, normalized (env_s files_d) 19 loaded_d (L "x y") js /\ unmatched js).
Proof.
  cbn zeta. repeat match goal with |- _ /\ _ => split end.
  - apply (ru_descent _ _ _ _ _ (L "g") (L "g") no_opts None); try reflexivity.
    + apply arg_b. reflexivity.
    + left. auto.
    + split; [reflexivity|apply clean_b; reflexivity].
    + eexists. split; [reflexivity|]. split; [discriminate|]. intros r. vm_compute. discriminate.
  - vm_compute. reflexivity.
  - exists true, loaded_d. vm_compute. reflexivity.
  - apply (ro_some (L "tail") [(L "tail", S' "x y"); (L "ip", S' "1.2.3.4")] (L "x y")). reflexivity.
  - eexists. split; [exists false, loaded_d; vm_compute; reflexivity|]. eexists. reflexivity.
Qed.

(** ** What does not hold *)
Definition ok_s (l : list string) (m : string) : option bool := match run_s (one_file l) m with EOk (b, _) => Some b | EUb _ => None end.
Definition ub_s (l : list string) (m : string) : option ub := match run_s (one_file l) m with EOk _ => None | EUb u => Some u end.

(** A separator at the end of the message is taken, as if it did not matter. *)
Theorem C75_trailing_separator_refuted : run_s (one_file ["rule=:%a:tokenized:,:number%"]) "1,2," = EOk (true, [(L "a", JArr [S' "1"; S' "2"])]).
Proof. vm_compute. reflexivity. Qed.

(** An empty separator: with a type that can match the empty text, the loop goes on forever. *)
Theorem C75_empty_separator_refuted : let fd := sfld "default" KCharSep (Some ",") in
  vsub_of (env_s fs0) 3 (one_field fd) (sfld "a" KTokenized (Some ":char-sep:,")) = EOk (STok [] (L "tail") true (Some (one_field fd))) /\
  forall fuel nf acc, tok_loop fuel (dnorm (env_s fs0) nf (one_field fd)) [] (L "tail") true (L ",") [] acc = Ub OutOfFuel.
Proof.
  intros fd. split; [vm_compute; reflexivity|]. induction fuel as [|fu IH]; intros nf acc; [reflexivity|]. cbn [tok_loop]. unfold dnorm at 1.
  rewrite norm_content; try reflexivity; try discriminate; [|apply clean_b; reflexivity]. rewrite run_plain by reflexivity.
  change (run_v1 (env_s fs0) (L ",") fd 0) with (Ok (0, JStr [])). cbn [bind]. unfold content_js. cbn [Nat.ltb Nat.leb L list_ascii_of_string List.length]. cbn [bufcmp].
  change (L ",") with [","%char] in IH. cbn - [tok_loop dnorm]. apply IH.
Qed.

(** A file that cannot be read: tokenized with descent follows a null pointer. *)
Theorem C75_missing_file_refuted : ub_s ["rule=:%a:tokenized:,:descent:nofile%"] "x" = Some NullDeref.
Proof. vm_compute. reflexivity. Qed.

(** interpret and suffixed never fail: where they do not apply they take the empty text. *)
Theorem C76_no_match_refuted : run_s (one_file ["rule=:%a:interpret:int:number%foo"]) "foo" = EOk (true, [(L "a", S' "")]) /\
  run_s (one_file ["rule=:%a:interpret:what:number%foo"]) "foo" = EOk (true, [(L "a", S' "")]) /\
  run_s (one_file ["rule=:%a:suffixed:,:b,kb:number%12x"]) "12x" = EOk (true, [(L "a", S' "")]) /\
  run_s (one_file ["rule=:foo%b:descent:nofile%bar"]) "foobar" = EOk (true, [(L "b", S' "")]).
Proof. repeat split; vm_compute; reflexivity. Qed.
(** An integer that is interpreted as an integer is used after it was freed. *)
Theorem C76_int_of_int_refuted : ub_s ["rule=:%a:interpret:int:interpret:int:number%"] "12" = Some UseAfterFree.
Proof. vm_compute. reflexivity. Qed.
(** What is no number is 0; the rest of the text is lost. *)
Theorem C76_not_a_number_refuted : run_s (one_file ["rule=:%a:interpret:int:word% %b:interpret:int:word%"]) "abc 12ab" = EOk (true, [(L "b", JInt 12); (L "a", JInt 0)]).
Proof. vm_compute. reflexivity. Qed.

(** The content takes everything: there is no text to compare the suffixes with. *)
Theorem C77_nothing_left_refuted : ub_s ["rule=:%a:suffixed:,:b,kb:number%"] "12" = Some NullDeref.
Proof. vm_compute. reflexivity. Qed.
(** The first suffix in the list wins, even if a longer one matches. *)
Theorem C77_longest_suffix_refuted : run_s (one_file ["rule=:%a:suffixed:,:m,mb:number%%r:rest%"]) "12mb" =
  EOk (true, [(L "r", S' "b"); (L "a", JObj [(L "value", S' "12"); (L "suffix", S' "m")])]).
Proof. vm_compute. reflexivity. Qed.

(** A recursive field at the beginning of a rule: the rule is applied to the same text again
    and again, to any depth (the stack overflows). *)
Definition files_r (f : text) : option text := if text_eqb f (L "f") then Some (lines ["rule=:%a:recursive%"]) else None.
Definition field_r : vfield := sfld "a" KRecursive None.
Definition loaded_r : lctx :=
  {| l_ctx := set_version (initCtx no_opts) 1; l_tree := VNode [] false None [(field_r, VNode [] true None [] [])] [] |}.
Theorem C78_recursion_refuted : l_loadFile (env_s files_r) isort 20 (l_init no_opts) (L "f") = EOk (loaded_r, true) /\
  forall nf m, m <> [] -> l_normalize (env_s files_r) nf loaded_r m [] = EUb OutOfFuel.
Proof.
  split; [vm_compute; reflexivity|]. intros nf m Hm. induction nf as [|nf IH].
  - unfold l_normalize, v1_normalize. change (N.eqb (c_version (l_ctx loaded_r)) 1) with true. cbn iota. cbn [l_tree loaded_r]. rewrite vrec_eq. destruct m as [|c m]; [congruence|]. reflexivity.
  - assert (HF : run_field (env_s files_r) (S nf) (vctx_of loaded_r) m field_r 0 = Ub OutOfFuel).
    { apply (C78_misbehaviour (env_s files_r) isort nf loaded_r field_r (L "tail") loaded_r [] m OutOfFuel); [reflexivity| |exact IH].
      apply ru_recursive; [reflexivity|]. left. auto. }
    unfold l_normalize, v1_normalize. change (N.eqb (c_version (l_ctx loaded_r)) 1) with true. cbn iota.
    revert HF. generalize (run_field (env_s files_r) (S nf) (vctx_of loaded_r) m). intros rf HF.
    change (l_tree loaded_r) with (VNode [] false None [(field_r, VNode [] true None [] [])] []). rewrite vrec_eq.
    destruct m as [|c m]; [congruence|]. cbn [List.length Nat.leb cpl Nat.ltb Nat.add]. cbn [floop]. change (vkind_eqb (vf_kind field_r) KIptables) with false. change (vkind_eqb (vf_kind field_r) KRest) with false. cbn iota.
    rewrite HF. reflexivity.
Qed.
Print Assumptions C78_recursion_refuted.
(** The remaining field comes from the rules and their annotations: its text may be longer
    than the text that was to be parsed, and the message goes on from an earlier position. *)
Theorem C78_goes_back_refuted :
  run_s (one_file ["rule=x:%a:word%"; "annotate=x:+tail=""12345"""; "rule=:go %r:recursive%%z:rest%"]) "go ab" =
  EOk (true, [(L "z", S' "go ab"); (L "r", JObj [(L "a", S' "ab"); (L "event.tags", JArr [S' "x"])])]).
Proof. vm_compute. reflexivity. Qed.
