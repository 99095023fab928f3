(** Theorems about the private intersection-sum protocol (C38-C42) and the client program (C56). *)
From Coq Require Import Permutation Sorted.
From Verif Require Import Base M_BigNum L_BigNum M_Num L_Num L_DJ M_EC L_EC L_Toy M_Group S_Group P_Group M_Cipher S_Cipher L_Cipher P_Cipher
  M_Paillier S_Paillier P_Paillier M_Csv S_Csv L_Csv P_Csv M_Protocol S_Protocol L_Protocol.

(** Hashing tells the identifiers in [ids] apart. *)
Definition hash_injective_on C X sqrt_p fuel (ids : list bytes) : Prop :=
  forall a b, In a ids -> In b ids -> hash_to_curve C sqrt_p 256 (sha256 X) fuel a = hash_to_curve C sqrt_p 256 (sha256 X) fuel b -> a = b.
(** A prime for which the key constructor's search for a generator succeeds. *)
Definition small_generator (p : Z) : Prop := exists x, 2 <= x <= 1001 /\ x < p - 1 /\ x ^ ((p - 1) / 2) mod p <> 1.

(** ** C39: any datasets, with repetitions. *)
Theorem C39_multiset_result : forall C X sqrt_p fuel is_safe_prime flag srt elements values p q key_raw rp rq inputs r1 r2 f1 f2 cl,
  ec_laws C -> sorts srt -> safe_prime p -> safe_prime q -> hash_injective_on C X sqrt_p fuel (elements ++ inputs) ->
  run_protocol C X sqrt_p fuel is_safe_prime flag srt elements values p q key_raw rp rq (server_init inputs) r1 r2 f1 f2 = Ok cl ->
  map fst (combine elements values) = elements /\
  exists chosen, multi_intersection (combine elements values) inputs chosen /\
    cl_finished cl = true /\ cl_size cl = Z.of_nat (length chosen) /\ cl_sum cl = zsum (map snd chosen) mod (p * q) ^ 2.
Proof.
  intros C X sq fuel isp flag srt xs vs p q kr rp rq inputs r1 r2 f1 f2 cl L Hs Hp Hq Hinj E.
  destruct (run_result C L X sq fuel isp flag p q Hp Hq srt Hs xs vs kr rp rq inputs r1 r2 f1 f2 cl E) as (H1 & chosen & H2 & H3 & H4 & H5).
  - intros a b Ha Hb Hh. exact (Hinj a b Ha Hb Hh).
  - split; [exact H1|]. exists chosen. tauto.
Qed.
Print Assumptions C39_multiset_result.

(** The number of rows chosen is the size of the multiset intersection, whichever rows they are. *)
Theorem C39_size_unique : forall rows server c1 c2, multi_intersection rows server c1 -> multi_intersection rows server c2 -> length c1 = length c2 /\ Permutation (map fst c1) (map fst c2).
Proof.
  intros rows server c1 c2 [_ H1] [_ H2]. assert (P : Permutation (map fst c1) (map fst c2)).
  { apply (Permutation_count_occ bytes_dec). intros x. change (count x (map fst c1) = count x (map fst c2)). rewrite H1, H2. reflexivity. }
  split; [|exact P]. apply Permutation_length in P. rewrite !map_length in P. exact P.
Qed.
Print Assumptions C39_size_unique.

Definition spread_hash (s : bytes) : bytes := repeat (zb 0) 31 ++ [zb (fold_left (fun a b => (a * 7 + bz b) mod 251) s 3)].
Definition spread_ext : externals := {| sha256 := spread_hash; sha384 := spread_hash; sha512 := spread_hash; hmac512 := fun k d => spread_hash (k ++ d) |}.
Definition demo_id (k : Z) : bytes := [zb k].
Definition demo_rand (k : Z) : server_rand := {| sr_key := k; sr_gen := [23; 0; 19]; sr_zero := 17 |}.
Definition demo_run (elements : list bytes) (values : list Z) (inputs : list bytes) : outcome client :=
  run_protocol toy spread_ext toy_sqrt 20 ex_safe false isort elements values 23 47 11 (fun i => Z.of_nat i + 3) (fun i => Z.of_nat i * 2 + 5) (server_init inputs) (demo_rand 29) (demo_rand 31) NoFault NoFault.
Example C39_ex :
  match demo_run [demo_id 65; demo_id 66; demo_id 65; demo_id 65] [100; 20; 100; 100] [demo_id 65; demo_id 67; demo_id 65] with
  | Ok cl => (cl_size cl, cl_sum cl) = (2, 200) | _ => False end.
Proof. vm_compute. reflexivity. Qed.
Definition demo_x (a : bytes) : option (Z * Z) := match hash_to_curve toy toy_sqrt 256 spread_hash 20 a with Ok P => ec_xy toy P | _ => None end.
Lemma demo_xs : (demo_x (demo_id 65), demo_x (demo_id 66), demo_x (demo_id 67)) = (Some (26, 28), Some (28, 14), Some (10, 66)).
Proof. vm_compute. reflexivity. Qed.
Lemma demo_injective : hash_injective_on toy spread_ext toy_sqrt 20 [demo_id 65; demo_id 66; demo_id 67].
Proof.
  intros a b Ha Hb E. assert (Ex : demo_x a = demo_x b) by (unfold demo_x; change spread_hash with (sha256 spread_ext); rewrite E; reflexivity). clear E.
  pose proof demo_xs as D. revert Ex D. generalize demo_x. intros g Ex D. injection D as D1 D2 D3. destruct Ha as [<-|[<-|[<-|[]]]], Hb as [<-|[<-|[<-|[]]]]; try reflexivity; exfalso; congruence.
Qed.

(** ** C38: distinct client identifiers. *)
Theorem C38_intersection_sum : forall C X sqrt_p fuel is_safe_prime flag srt elements values p q key_raw rp rq inputs r1 r2 f1 f2 cl,
  ec_laws C -> sorts srt -> safe_prime p -> safe_prime q -> hash_injective_on C X sqrt_p fuel (elements ++ inputs) -> NoDup elements ->
  run_protocol C X sqrt_p fuel is_safe_prime flag srt elements values p q key_raw rp rq (server_init inputs) r1 r2 f1 f2 = Ok cl ->
  let hits := common (combine elements values) inputs in
  cl_finished cl = true /\ cl_size cl = Z.of_nat (length hits) /\ cl_sum cl = zsum (map snd hits) mod (p * q) ^ 2 /\
  (0 <= zsum (map snd hits) < (p * q) ^ 2 -> cl_sum cl = zsum (map snd hits)).
Proof.
  intros C X sq fuel isp flag srt xs vs p q kr rp rq inputs r1 r2 f1 f2 cl L Hs Hp Hq Hinj ND E hits.
  destruct (C39_multiset_result _ _ _ _ _ _ _ _ _ _ _ _ _ _ _ _ _ _ _ _ L Hs Hp Hq Hinj E) as (H1 & chosen & H2 & H3 & H4 & H5).
  pose proof (multi_intersection_nodup (combine xs vs) inputs chosen ltac:(rewrite H1; exact ND) H2) as P. fold hits in P.
  rewrite (Permutation_length P) in H4. rewrite (zsum_perm _ _ (Permutation_map snd P)) in H5. do 3 (split; [assumption|]). intros B. rewrite H5. apply Z.mod_small, B.
Qed.
Print Assumptions C38_intersection_sum.

(** And the run does complete: on two different safe primes, with values below n^2, identifiers that hash, and one unit among the server's draws. *)
Theorem C38_completes : forall C X sqrt_p fuel is_safe_prime flag srt elements values p q key_raw rp rq inputs r1 r2,
  ec_laws C -> sqrt_ok (ec_p C) sqrt_p -> sorts srt ->
  safe_prime p -> safe_prime q -> p <> q -> is_safe_prime p = true -> is_safe_prime q = true -> small_generator p -> small_generator q ->
  (length elements <= length values)%nat -> Forall (fun v => 0 <= v < (p * q) ^ 2) values ->
  Forall (fun x => exists P, hash_to_curve C sqrt_p 256 (sha256 X) fuel x = Ok P) (elements ++ inputs) ->
  (exists i, In i (sr_gen r2) /\ Z.gcd (i mod (p * q)) (p * q) = 1) ->
  exists cl, run_protocol C X sqrt_p fuel is_safe_prime flag srt elements values p q key_raw rp rq (server_init inputs) r1 r2 NoFault NoFault = Ok cl.
Proof.
  intros C X sq fuel isp flag srt xs vs p q kr rp rq inputs r1 r2 L Hsq Hs Hp Hq Npq Ip Iq Gp Gq Hl Hv Hx Hd. apply (run_ok C L X sq fuel isp flag p q Hp Hq srt Hs); try assumption.
  eapply Forall_impl; [|exact Hx]. cbn beta. intros x (P & E). exists P. split; [exact E|]. apply (C33_hash_gives_curve_point C sq 256 (sha256 X) fuel x P L Hsq E).
Qed.
Print Assumptions C38_completes.
Example C38_ex : exists cl, demo_run [demo_id 65; demo_id 66] [1000; 77] [demo_id 66; demo_id 67] = Ok cl /\ cl_size cl = 1 /\ cl_sum cl = 77.
Proof.
  destruct (C38_completes toy spread_ext toy_sqrt 20 ex_safe false isort [demo_id 65; demo_id 66] [1000; 77] 23 47 11 (fun i => Z.of_nat i + 3) (fun i => Z.of_nat i * 2 + 5) [demo_id 66; demo_id 67] (demo_rand 29) (demo_rand 31)) as (cl & E);
    try reflexivity; try lia; try exact toy_laws; try exact toy_sqrt_ok; try exact isort_sorts; try exact safe_23; try exact safe_47.
  - exists 5. repeat split; try lia. vm_compute. discriminate.
  - exists 5. repeat split; try lia. vm_compute. discriminate.
  - repeat constructor; cbn; lia.
  - repeat apply Forall_cons; try apply Forall_nil.
    all: match goal with |- exists P, ?t = Ok P => assert (D : is_ok t = true) by (vm_compute; reflexivity); destruct t as [P| | | |]; try discriminate D; exists P; reflexivity end.
  - exists 19. split; [cbn; tauto|reflexivity].
  - exists cl. split; [exact E|]. assert (Hinj : hash_injective_on toy spread_ext toy_sqrt 20 ([demo_id 65; demo_id 66] ++ [demo_id 66; demo_id 67])).
    { intros a b Ha Hb. apply demo_injective; [cbn [app In] in Ha |- *; tauto|cbn [app In] in Hb |- *; tauto]. }
    assert (ND : NoDup [demo_id 65; demo_id 66]) by (constructor; [intros [H|[]]; discriminate H|constructor; [intros []|constructor]]).
    destruct (C38_intersection_sum _ _ _ _ _ _ _ _ _ _ _ _ _ _ _ _ _ _ _ cl toy_laws isort_sorts safe_23 safe_47 Hinj ND E) as (_ & H1 & _ & H2).
    split; [exact H1|]. apply H2. vm_compute. split; [discriminate|reflexivity].
Qed.

(** ** C40: the server's replies, over every history of messages. *)
Theorem C40_reply_order : forall C X sqrt_p fuel flag srt inputs h st, ec_laws C -> sqrt_ok (ec_p C) sqrt_p -> bit_length (ec_p C) <= 129024 ->
  server_history C X sqrt_p fuel flag srt inputs h st ->
  (sv_finished st = false /\ replies h = []) \/
  (sv_finished st = false /\ exists es, replies h = [Some (SRoundOne es)]) \/
  (sv_finished st = true /\ exists es n b, replies h = [Some (SRoundOne es); Some (SRoundTwo n b)]).
Proof.
  intros C X sq fuel flag srt inputs h st L Hs Hb H. destruct (history_phase C L X sq Hs Hb fuel flag srt inputs h st H) as (_ & [(_ & H1 & H2)|[(_ & H1 & H2)|(_ & H1 & H2)]]); tauto.
Qed.
Print Assumptions C40_reply_order.

(** Which messages are refused, and that refusing changes nothing and sends nothing. *)
Theorem C40_refusals : forall C X sqrt_p fuel flag srt inputs h st r send m, ec_laws C -> sqrt_ok (ec_p C) sqrt_p -> bit_length (ec_p C) <= 129024 ->
  server_history C X sqrt_p fuel flag srt inputs h st ->
  (m = None \/ m = Some CUnset \/ sv_finished st = true \/ (m = Some CStart /\ replies h <> []) \/ ((exists pk es rs, m = Some (CRoundOne pk es rs)) /\ replies h = [])) ->
  server_handle C X sqrt_p fuel flag srt r send st m = (st, None, Err InvalidArgument).
Proof.
  intros C X sq fuel flag srt inputs h st r send m L Hs Hb H D. destruct (history_phase C L X sq Hs Hb fuel flag srt inputs h st H) as (Hi & Ph). unfold server_handle.
  destruct (sv_finished st) eqn:Ef; [reflexivity|]. destruct D as [->|[->|[D|[[-> D]|[(pk & es & rs & ->) D]]]]]; try reflexivity; [discriminate| |].
  - unfold encrypt_set. destruct Ph as [(_ & _ & E)|[((c & Hc) & _)|((c & Hc) & _)]]; [congruence| |]; rewrite Hc; reflexivity.
  - unfold compute_intersection. destruct Ph as [(Hc & _)|[(_ & _ & es' & E)|(_ & _ & es' & n & b & E)]]; [|congruence|congruence]. rewrite Hc. reflexivity.
Qed.
Print Assumptions C40_refusals.

(** What the documentation of the class does not say: the server counts as finished even if its last reply could not be sent. *)
Theorem C40_finished_before_sending : forall C X sqrt_p fuel flag srt r send st pk es rs size sb, sv_finished st = false ->
  compute_intersection C flag srt r st pk es rs = Ok (size, sb) ->
  exists st', server_handle C X sqrt_p fuel flag srt r send st (Some (CRoundOne pk es rs)) = (st', Some (Some (SRoundTwo size sb)), send (Some (SRoundTwo size sb))) /\ sv_finished st' = true.
Proof. intros C X sq fuel flag srt r send st pk es rs size sb Hf E. unfold server_handle. rewrite Hf, E. eexists. split; reflexivity. Qed.
Print Assumptions C40_finished_before_sending.
(** A history with a refused message, round one, a repeated start, and a round two that cannot be delivered. *)
Definition demo_reply (m : client_message) (st : server) : server * option server_message * outcome unit :=
  server_handle toy spread_ext toy_sqrt 20 false isort (demo_rand 29) (fun _ => Ok tt) st m.
Example C40_ex :
  let '(s1, a1, o1) := demo_reply (Some (CRoundOne [] [] [])) (server_init [demo_id 65]) in
  let '(s2, a2, o2) := demo_reply (Some CStart) s1 in
  let '(s3, a3, o3) := demo_reply (Some CStart) s2 in
  let '(s4, a4, o4) := server_handle toy spread_ext toy_sqrt 20 false isort (demo_rand 29) (fun _ => Err Internal) s3 (Some (CRoundOne [zb 4; zb 57] [] [])) in
  let '(s5, a5, o5) := demo_reply (Some CStart) s4 in
  (a1, o1) = (None, Err InvalidArgument) /\ (exists e, a2 = Some (Some (SRoundOne [e]))) /\ (a3, o3) = (None, Err InvalidArgument) /\
  (exists b, a4 = Some (Some (SRoundTwo 0 b))) /\ o4 = Err Internal /\ sv_finished s4 = true /\ (a5, o5) = (None, Err InvalidArgument).
Proof. vm_compute. repeat split; eexists; reflexivity. Qed.

(** ** C41: the client, over every history of messages. *)
Lemma client_frame C X sqrt_p fuel isp flag srt rp rq send st m st' reply status : client_handle C X sqrt_p fuel isp flag srt rp rq send st m = (st', reply, status) ->
  cl_p st' = cl_p st /\ cl_q st' = cl_q st /\
  (cl_paillier st' = cl_paillier st \/ (exists es sk, m = Some (SRoundOne es) /\ cl_finished st = false /\ private_create isp flag (cl_p st) (cl_q st) 2 = Ok sk /\ cl_paillier st' = Some sk)) /\
  ((cl_finished st' = cl_finished st /\ cl_size st' = cl_size st /\ cl_sum st' = cl_sum st /\ ((exists n b, m = Some (SRoundTwo n b)) -> status <> Ok tt)) \/
   (exists n b sk, m = Some (SRoundTwo n b) /\ status = Ok tt /\ reply = None /\ cl_finished st = false /\ cl_finished st' = true /\ cl_paillier st = Some sk /\ cl_paillier st' = Some sk /\ cl_size st' = n /\ priv_decrypt sk (of_bytes b) = Ok (cl_sum st'))) /\
  (cl_finished st = true -> st' = st /\ reply = None /\ status = Err InvalidArgument).
Proof.
  unfold client_handle. destruct (cl_finished st) eqn:Ef; [intros E; injection E as <- <- <-; repeat split; try tauto; left; rewrite Ef; repeat split; discriminate|].
  assert (Triv : forall e, (st, None, e) = (st', reply, status) -> (forall u, e <> Ok u) -> cl_p st' = cl_p st /\ cl_q st' = cl_q st /\
    (cl_paillier st' = cl_paillier st \/ (exists es sk, m = Some (SRoundOne es) /\ false = false /\ private_create isp flag (cl_p st) (cl_q st) 2 = Ok sk /\ cl_paillier st' = Some sk)) /\
    ((cl_finished st' = false /\ cl_size st' = cl_size st /\ cl_sum st' = cl_sum st /\ ((exists n b, m = Some (SRoundTwo n b)) -> status <> Ok tt)) \/
     (exists n b sk, m = Some (SRoundTwo n b) /\ status = Ok tt /\ reply = None /\ false = false /\ cl_finished st' = true /\ cl_paillier st = Some sk /\ cl_paillier st' = Some sk /\ cl_size st' = n /\ priv_decrypt sk (of_bytes b) = Ok (cl_sum st'))) /\
    (false = true -> st' = st /\ reply = None /\ status = Err InvalidArgument)).
  { intros e E Hne. injection E as <- <- <-. repeat split; try tauto; try discriminate. left. repeat split; try assumption. intros _. apply Hne. }
  destruct m as [[es|sz sb|]|].
  - unfold reencrypt_set. destruct (private_create isp flag (cl_p st) (cl_q st) 2) as [sk|e| | |] eqn:Esk; try (intros E; apply (Triv _ E); discriminate).
    match goal with |- (match ?o with _ => _ end = _) -> _ => destruct o as [[[pkb rows] re]|e| | |] end; intros E; injection E as <- <- <-; cbn; repeat split; try discriminate;
      try (right; exists es, sk; tauto); left; repeat split; try assumption; intros (n & b & E); discriminate.
  - unfold decrypt_sum. destruct (cl_paillier st) as [sk|] eqn:Es; [|intros E; apply (Triv _ E); discriminate].
    destruct (priv_decrypt sk (of_bytes sb)) as [v|e| | |] eqn:Ed; cbn [bind]; try (intros E; apply (Triv _ E); discriminate).
    intros E; injection E as <- <- <-. cbn. repeat split; try tauto; try discriminate. right. exists sz, sb, sk. tauto.
  - intros E; apply (Triv _ E); discriminate.
  - intros E; apply (Triv _ E); discriminate.
Qed.

(** A finished client got a round-two message it accepted, after a round-one message; its result is the content of that message decrypted with its own
    key; and it refused everything that followed. *)
Theorem C41_finishing : forall C X sqrt_p fuel is_safe_prime flag srt elements values p q key_raw cl0 h st,
  client_create C elements values p q key_raw = Ok cl0 -> client_history C X sqrt_p fuel is_safe_prime flag srt cl0 h st -> cl_finished st = true ->
  exists h1 e1 h2 e2 h3 es size b sk, h = h1 ++ e1 :: h2 ++ e2 :: h3 /\ ce_msg e1 = Some (SRoundOne es) /\ ce_msg e2 = Some (SRoundTwo size b) /\ ce_status e2 = Ok tt /\
    private_create is_safe_prime flag p q 2 = Ok sk /\ priv_decrypt sk (of_bytes b) = Ok (cl_sum st) /\ cl_size st = size /\
    Forall (fun e => ce_status e = Err InvalidArgument /\ ce_reply e = None) h3.
Proof.
  intros C X sq fuel isp flag srt xs vs p q kr cl0 h st E0 H. unfold client_create in E0. apply bind_ok in E0. destruct E0 as (c & _ & E0). apply (f_equal (fun o => match o with Ok x => x | _ => cl0 end)) in E0. cbn beta iota in E0.
  set (R1 := fun h : list client_event => exists h1 e1 h2 es, h = h1 ++ e1 :: h2 /\ ce_msg e1 = Some (SRoundOne es)).
  enough (I : cl_p st = p /\ cl_q st = q /\ (forall sk, cl_paillier st = Some sk -> R1 h /\ private_create isp flag p q 2 = Ok sk) /\
    (cl_finished st = true -> exists h12 e2 h3 size b sk, h = h12 ++ e2 :: h3 /\ R1 h12 /\ ce_msg e2 = Some (SRoundTwo size b) /\ ce_status e2 = Ok tt /\
       private_create isp flag p q 2 = Ok sk /\ priv_decrypt sk (of_bytes b) = Ok (cl_sum st) /\ cl_size st = size /\ Forall (fun e => ce_status e = Err InvalidArgument /\ ce_reply e = None) h3)).
  { intros Hf. destruct I as (_ & _ & _ & I). destruct (I Hf) as (h12 & e2 & h3 & size & b & sk & -> & (h1 & e1 & h2 & es & -> & He1) & He2). exists h1, e1, h2, e2, h3, es, size, b, sk.
    rewrite <- app_assoc. cbn [app]. tauto. }
  induction H as [|h st rp rq snd m st' reply status H IH E A].
  - subst cl0. cbn. repeat split; try reflexivity; intros; discriminate.
  - destruct IH as (I1 & I2 & I3 & I4). destruct (client_frame _ _ _ _ _ _ _ _ _ _ _ _ _ _ _ E) as (F1 & F2 & F3 & F4 & F5). split; [congruence|]. split; [congruence|].
    set (e := {| ce_rp := rp; ce_rq := rq; ce_sink := snd; ce_msg := m; ce_reply := reply; ce_status := status |}). split.
    + intros sk Hsk. destruct F3 as [F3|(es & sk' & Em & _ & Ek & F3)].
      * rewrite F3 in Hsk. destruct (I3 sk Hsk) as [(h1 & e1 & h2 & es & -> & He) Hk]. split; [|exact Hk]. exists h1, e1, (h2 ++ [e]), es. split; [rewrite <- app_assoc; reflexivity|exact He].
      * split; [exists h, e, [], es; split; [reflexivity|exact Em]|]. rewrite I1, I2 in Ek. congruence.
    + intros Hf. destruct (cl_finished st) eqn:Ef.
      * destruct (F5 eq_refl) as (-> & -> & ->). destruct (I4 eq_refl) as (h12 & e2 & h3 & size & b & sk & -> & HR & J1 & J2 & J3 & J4 & J5 & J6). exists h12, e2, (h3 ++ [e]), size, b, sk.
        repeat (split; [first [assumption|rewrite <- app_assoc; reflexivity]|]). apply Forall_app. split; [exact J6|]. constructor; [split; reflexivity|constructor].
      * destruct F4 as [(F & _)|(n & b & sk & Em & Es & _ & _ & _ & Hk & _ & Hn & Hd)]; [congruence|]. destruct (I3 sk Hk) as [HR Hpk]. exists h, e, [], n, b, sk. repeat (split; [first [assumption|reflexivity]|]). constructor.
Qed.
Print Assumptions C41_finishing.
(** It is finished as soon as it accepted a round-two message. *)
Theorem C41_finished_iff : forall C X sqrt_p fuel is_safe_prime flag srt elements values p q key_raw cl0 h st,
  client_create C elements values p q key_raw = Ok cl0 -> client_history C X sqrt_p fuel is_safe_prime flag srt cl0 h st ->
  (cl_finished st = true <-> exists e n b, In e h /\ ce_msg e = Some (SRoundTwo n b) /\ ce_status e = Ok tt).
Proof.
  intros C X sq fuel isp flag srt xs vs p q kr cl0 h st E0 H. split.
  - intros Hf. destruct (C41_finishing _ _ _ _ _ _ _ _ _ _ _ _ _ _ _ E0 H Hf) as (h1 & e1 & h2 & e2 & h3 & es & size & b & sk & -> & _ & J1 & J2 & _). exists e2, size, b. split; [|tauto]. apply in_or_app. right. right. apply in_or_app. right. left. reflexivity.
  - intros (e & n & b & Hin & Hm & Hs). induction H as [|h st rp rq snd m st' reply status H IH E A]; [contradiction|]. destruct (client_frame _ _ _ _ _ _ _ _ _ _ _ _ _ _ _ E) as (F1 & F2 & F3 & F4 & F5).
    apply in_app_or in Hin. destruct Hin as [Hin|[<-|[]]].
    + specialize (IH Hin). destruct (F5 IH) as (-> & _). exact IH.
    + cbn in Hm, Hs. destruct F4 as [(_ & _ & _ & F)|(n' & b' & sk & _ & _ & _ & _ & F & _)]; [exfalso; apply F; eauto|exact F].
Qed.
Print Assumptions C41_finished_iff.
(** Before that it prints nothing; afterwards nothing changes any more. *)
Theorem C41_output : forall C X sqrt_p fuel is_safe_prime flag srt st, 
  (cl_finished st = false -> print_output st = Err InvalidArgument) /\
  (cl_finished st = true -> forall rp rq send m, client_handle C X sqrt_p fuel is_safe_prime flag srt rp rq send st m = (st, None, Err InvalidArgument)) /\
  (cl_finished st = true -> 0 <= cl_sum st -> print_output st = if cl_sum st <? 2 ^ 64 then Ok (cl_size st, cl_sum st) else Err InvalidArgument).
Proof.
  intros C X sq fuel isp flag srt st. split; [intros E; unfold print_output; rewrite E; reflexivity|]. split; [intros E rp rq send m; unfold client_handle; rewrite E; reflexivity|].
  intros E H. unfold print_output, to_int_value. rewrite E. cbn [negb]. rewrite Z.abs_eq by exact H. destruct (Z.eq_dec (cl_sum st) 0) as [->|N]; [reflexivity|].
  pose proof (bit_length_pow (cl_sum st) N) as [B1 B2]. rewrite Z.abs_eq in B1, B2 by exact H.
  destruct (Z.leb_spec (bit_length (cl_sum st)) 64) as [H1|H1], (Z.ltb_spec (cl_sum st) (2 ^ 64)) as [H2|H2]; try reflexivity; exfalso.
  - pose proof (Z.pow_le_mono_r 2 _ 64 ltac:(lia) H1). lia.
  - pose proof (Z.pow_le_mono_r 2 64 (bit_length (cl_sum st) - 1) ltac:(lia) ltac:(lia)). lia.
Qed.
Print Assumptions C41_output.
(** The round-one message need not have been handled successfully: a client that rejected it (here: bytes that encode no point) still accepts a round two. *)
Definition demo_client : outcome client := client_create toy [demo_id 65] [5] 23 47 11.
Theorem C41_successful_round_one_refuted : exists cl0 cl1 cl2 b, demo_client = Ok cl0 /\
  client_handle toy spread_ext toy_sqrt 20 ex_safe false isort (fun _ => 1) (fun _ => 2) (fun _ => Ok tt) cl0 (Some (SRoundOne [{| el := []; ad := [] |}])) = (cl1, None, Err InvalidArgument) /\
  client_handle toy spread_ext toy_sqrt 20 ex_safe false isort (fun _ => 1) (fun _ => 2) (fun _ => Ok tt) cl1 (Some (SRoundTwo 1000 b)) = (cl2, None, Ok tt) /\
  cl_finished cl2 = true /\ cl_size cl2 = 1000.
Proof.
  destruct demo_client as [cl0| | | |] eqn:E0; try (vm_compute in E0; discriminate).
  destruct (client_handle toy spread_ext toy_sqrt 20 ex_safe false isort (fun _ => 1) (fun _ => 2) (fun _ => Ok tt) cl0 (Some (SRoundOne [{| el := []; ad := [] |}]))) as [[cl1 r1] s1] eqn:E1.
  exists cl0, cl1. vm_compute in E0. injection E0 as <-. vm_compute in E1. injection E1 as <- <- <-. eexists. exists [zb 2]. split; [reflexivity|]. split; [reflexivity|]. split; [vm_compute; reflexivity|]. split; reflexivity.
Qed.
Print Assumptions C41_successful_round_one_refuted.

(** ** C42: the RPC layer, for every handler. *)
(** What a handler sees when the sink accepts the first message only. *)
Definition first_sent {M} (h : handler M) : option M := match h with HReturn _ => None | HSend m _ => Some m end.
Fixpoint after_first {M} (h : handler M) : option code := match h with HReturn s => s | HSend m k => after_first (k (Some InvalidArgument)) end.
Theorem C42_rpc : forall M (h : handler M),
  fst (rpc_handle h) = first_sent h /\
  snd (rpc_handle h) = convert_status (match h with HReturn s => s | HSend m k => after_first (k None) end) /\
  (snd (rpc_handle h) = GOk <-> (match h with HReturn s => s | HSend m k => after_first (k None) end) = None).
Proof.
  intros M h. assert (K : forall (h : handler M) m, run_handler h (Some m) = (Some m, after_first h)) by (intros h'; induction h' as [s|m' k IH]; intros m; cbn [run_handler single_sink after_first]; [reflexivity|apply IH]).
  unfold rpc_handle. destruct h as [s|m k]; cbn [run_handler single_sink first_sent].
  - cbn [fst snd]. split; [reflexivity|]. split; [reflexivity|]. destruct s as [[]|]; cbn; split; congruence.
  - rewrite K. cbn [fst snd]. split; [reflexivity|]. split; [reflexivity|]. destruct (after_first (k None)) as [[]|]; cbn; split; congruence.
Qed.
Print Assumptions C42_rpc.
Theorem C42_status_map : forall s, convert_status s =
  match s with None => GOk | Some e => if match e with InvalidArgument => true | _ => false end then GInvalidArgument else if match e with Internal => true | _ => false end then GInternal else GUnknown end.
Proof. intros [[]|]; reflexivity. Qed.
Print Assumptions C42_status_map.
(** A handler that tries to send twice and passes on the sink's verdict: the first message is the response, the status is INVALID_ARGUMENT. *)
Example C42_ex : rpc_handle (HSend 1 (fun a => match a with None => HSend 2 (fun b => HReturn b) | Some e => HReturn (Some e) end)) = (Some 1, GInvalidArgument).
Proof. reflexivity. Qed.
(** The server behind the RPC layer: what it hands to the sink is the response, and its status is what the caller sees. *)
Theorem C42_server_rpc : forall C X sqrt_p fuel flag srt r st m st' reply status,
  server_handle C X sqrt_p fuel flag srt r (fun _ => Ok tt) st m = (st', reply, status) ->
  (status = Ok tt -> exists rep, reply = Some rep /\ serve C X sqrt_p fuel flag srt r st m = (st', Ok (Some rep, GOk))) /\
  (forall e, status = Err e -> reply = None /\ serve C X sqrt_p fuel flag srt r st m = (st', Ok (None, convert_status (Some e)))).
Proof.
  intros C X sq fuel flag srt r st m st' reply status E. unfold serve. rewrite E. unfold server_handle in E. destruct (sv_finished st); [injection E as <- <- <-; split; [discriminate|intros e H; injection H as <-; split; reflexivity]|].
  destruct m as [[|pkb es rs|]|]; try (injection E as <- <- <-; split; [discriminate|intros e H; injection H as <-; split; reflexivity]).
  - destruct (encrypt_set C X sq fuel r st) as [s' [es|e| | |]]; injection E as <- <- <-; (split; [try discriminate; intros _; eexists; split; reflexivity|try discriminate; intros e' H; injection H as <-; split; reflexivity]).
  - destruct (compute_intersection C flag srt r st pkb es rs) as [[sz sb]|e| | |]; injection E as <- <- <-; (split; [try discriminate; intros _; eexists; split; reflexivity|try discriminate; intros e' H; injection H as <-; split; reflexivity]).
Qed.
Print Assumptions C42_server_rpc.

(** ** C56: the client program. *)
Theorem C56_exit_code_zero : forall C X sqrt_p fuel is_safe_prime flag srt client_file server_file p q key_raw rp rq r1 r2 f1 f2 size sum,
  ec_laws C -> sorts srt -> safe_prime p -> safe_prime q ->
  execute C X sqrt_p fuel is_safe_prime flag srt client_file server_file p q key_raw rp rq r1 r2 f1 f2 = Ok (size, sum) ->
  (forall elements values inputs, read_client_dataset client_file = Ok (elements, values) -> read_server_dataset server_file = Ok inputs -> hash_injective_on C X sqrt_p fuel (elements ++ inputs)) ->
  f1 = NoFault /\ f2 = NoFault /\ client_file <> None /\ server_file <> None /\
  exists rows inputs chosen, read_client_dataset client_file = Ok (map fst rows, map snd rows) /\ read_server_dataset server_file = Ok inputs /\
    multi_intersection rows inputs chosen /\ size = Z.of_nat (length chosen) /\ sum = zsum (map snd chosen) mod (p * q) ^ 2 /\ 0 <= sum < 2 ^ 64.
Proof.
  intros C X sq fuel isp flag srt cf sf p q kr rp rq r1 r2 f1 f2 size sum L Hs Hp Hq E Hinj. unfold execute in E. apply bind_ok in E. destruct E as ([xs vs] & Ec & E). cbn [fst snd] in E.
  apply bind_ok in E. destruct E as (cl & Er & E).
  assert (Hrows : xs = map fst (combine xs vs) /\ vs = map snd (combine xs vs)).
  { unfold read_client_dataset in Ec. destruct cf as [content|]; [|discriminate]. apply bind_ok in Ec. destruct Ec as (rows & _ & Ec).
    assert (xs = map fst rows /\ vs = map snd rows) as [-> ->] by (split; congruence). clear. induction rows as [|[x v] rows [IH1 IH2]]; cbn [map combine fst snd]; [split; reflexivity|]. rewrite <- IH1, <- IH2. split; reflexivity. }
  destruct (run_inv C X sq fuel isp flag p q Hp Hq srt _ _ _ _ _ _ _ _ _ _ _ Er) as (kc & ks & es & sk & rows & re & pk & cs & zero & s & F1 & F2 & _).
  destruct (read_server_dataset sf) as [inputs| | | |] eqn:Es; try discriminate F1. split; [exact F1|]. split; [exact F2|].
  split; [intros ->; discriminate Ec|]. split; [intros ->; discriminate Es|].
  destruct (C39_multiset_result _ _ _ _ _ _ _ _ _ _ _ _ _ _ _ _ _ _ _ _ L Hs Hp Hq (Hinj xs vs inputs Ec eq_refl) Er) as (_ & chosen & H2 & H3 & H4 & H5).
  exists (combine xs vs), inputs, chosen. destruct Hrows as [Hr1 Hr2]. rewrite <- Hr1, <- Hr2. split; [exact Ec|]. split; [reflexivity|]. split; [exact H2|].
  destruct (L_Paillier.safe_prime_facts p Hp) as (_ & Hp5 & _). destruct (L_Paillier.safe_prime_facts q Hq) as (_ & Hq5 & _). assert (MP : 0 < (p * q) ^ 2) by (apply Z.pow_pos_nonneg; nia).
  pose proof (Z.mod_pos_bound (zsum (map snd chosen)) _ MP) as B. rewrite <- H5 in B.
  rewrite (proj2 (proj2 (C41_output C X sq fuel isp flag srt cl)) H3 (proj1 B)) in E. destruct (Z.ltb_spec (cl_sum cl) (2 ^ 64)) as [Hlt|]; [|discriminate].
  assert (size = cl_size cl /\ sum = cl_sum cl) as [-> ->] by (split; congruence). split; [exact H4|]. split; [exact H5|]. lia.
Qed.
Print Assumptions C56_exit_code_zero.

(** Files written by the dataset writers, distinct client identifiers, an undisturbed run: exit code 0 with the exact numbers if the sum fits. *)
Theorem C56_written_files : forall C X sqrt_p fuel is_safe_prime flag srt elements values inputs cf sf p q key_raw rp rq r1 r2,
  ec_laws C -> sqrt_ok (ec_p C) sqrt_p -> sorts srt ->
  safe_prime p -> safe_prime q -> p <> q -> is_safe_prime p = true -> is_safe_prime q = true -> small_generator p -> small_generator q ->
  Forall storable elements -> Forall storable inputs -> NoDup elements -> Forall (fun v => 0 <= v < 2 ^ 63) values -> Forall (fun v => v < (p * q) ^ 2) values ->
  write_client_dataset true true elements values = Ok cf -> write_server_dataset true true inputs = Ok sf ->
  Forall (fun x => exists P, hash_to_curve C sqrt_p 256 (sha256 X) fuel x = Ok P) (elements ++ inputs) -> hash_injective_on C X sqrt_p fuel (elements ++ inputs) ->
  (exists i, In i (sr_gen r2) /\ Z.gcd (i mod (p * q)) (p * q) = 1) ->
  let hits := common (combine elements values) inputs in
  zsum (map snd hits) < (p * q) ^ 2 ->
  execute C X sqrt_p fuel is_safe_prime flag srt (Some cf) (Some sf) p q key_raw rp rq r1 r2 NoFault NoFault =
    if zsum (map snd hits) <? 2 ^ 64 then Ok (Z.of_nat (length hits), zsum (map snd hits)) else Err InvalidArgument.
Proof.
  intros C X sq fuel isp flag srt xs vs inputs cf sf p q kr rp rq r1 r2 L Hsq Hs Hp Hq Npq Ip Iq Gp Gq Sx Si ND Hv Hv2 Wc Ws Hh Hinj Hd hits Hsum.
  assert (Hlen : length vs = length xs). { pose proof (proj2 (C14_write_reports true true xs vs)) as W. rewrite Wc in W. apply W. reflexivity. }
  unfold execute. rewrite (C14_client_roundtrip xs vs cf Sx Hv Wc), (C14_server_roundtrip inputs sf Si Ws). cbn [bind fst snd].
  destruct (C38_completes C X sq fuel isp flag srt xs vs p q kr rp rq inputs r1 r2 L Hsq Hs Hp Hq Npq Ip Iq Gp Gq ltac:(lia)) as (cl & E); try assumption.
  { rewrite Forall_forall in *. intros v Hin. split; [apply Hv, Hin|apply Hv2, Hin]. }
  rewrite E. cbn [bind]. destruct (C38_intersection_sum _ _ _ _ _ _ _ _ _ _ _ _ _ _ _ _ _ _ _ _ L Hs Hp Hq Hinj ND E) as (Ef & H1 & _ & H2). fold hits in H1, H2.
  assert (H0 : 0 <= zsum (map snd hits)).
  { assert (F : Forall (fun v => 0 <= v) (map snd hits)).
    { apply Forall_forall. intros v Hin. apply in_map_iff in Hin. destruct Hin as ([x v'] & <- & Hin). unfold hits, common in Hin. apply filter_In in Hin. destruct Hin as [Hin _]. apply in_combine_r in Hin. rewrite Forall_forall in Hv. apply Hv, Hin. }
    clear -F. induction F as [|v l Hv _ IH]; cbn [zsum]; lia. }
  specialize (H2 (conj H0 Hsum)). rewrite (proj2 (proj2 (C41_output C X sq fuel isp flag srt cl)) Ef ltac:(lia)), H1, H2. reflexivity.
Qed.
Print Assumptions C56_written_files.
Definition demo_file : bytes := [x22; x41; x22; x2c; x37; x0a; x22; x42; x22; x2c; x35; x30; x0a].
Definition demo_execute (f1 f2 : fault) (sf : option bytes) : outcome (Z * Z) :=
  execute toy spread_ext toy_sqrt 20 ex_safe false isort (Some demo_file) sf 23 47 11 (fun i => Z.of_nat i + 3) (fun i => Z.of_nat i * 2 + 5) (demo_rand 29) (demo_rand 31) f1 f2.
Example C56_ex : write_client_dataset true true [demo_id 65; demo_id 66] [7; 50] = Ok demo_file /\
  demo_execute NoFault NoFault (Some [x43; x0a; x42; x0a]) = Ok (1, 50) /\ demo_execute LostReply NoFault (Some [x43; x0a; x42; x0a]) = Err Internal /\
  demo_execute NoFault LostRequest (Some [x43; x0a; x42; x0a]) = Err Internal /\ demo_execute NoFault NoFault None = Err Internal.
Proof. vm_compute. repeat split. Qed.
