(** What the server's last message tells the client (C67). *)
From Coq Require Import Znumtheory Permutation.
From Verif Require Import Base M_BigNum M_Num M_DJ M_EC M_Group M_Cipher M_Paillier M_Protocol S_Group S_Paillier S_Protocol S_HideSum L_BigNum L_Num L_Mod L_NT L_DJ L_EC L_Toy L_Group L_Cipher L_Paillier L_PaillierKey
  L_Protocol L_Jacobi L_HideSum L_Hide L_HideReply L_HideLeak P_Group P_Paillier P_Protocol.

(** The client's rows marked with the sum of the two exponents it used to encrypt the row's value. *)
Definition exponents (p q : Z) (rp rq : nat -> Z) (elements : list bytes) : list (bytes * Z) :=
  combine elements (map (fun i => exponent p (rp i) + exponent q (rq i)) (seq 0 (length elements))).

(** The reply decrypts to the sum and carries the size, as in the printed result of C38. *)
Lemma reply_meaning C X sqrt_p fuel isp flag srt xs vs p q key_raw rp rq inputs r1 r2 size sb sk : ec_laws C -> sorts srt -> safe_prime p -> safe_prime q -> 0 <= sr_zero r2 < p * q ->
  NoDup xs -> hash_injective_on C X sqrt_p fuel (xs ++ inputs) -> private_create isp flag p q 2 = Ok sk ->
  second_reply C X sqrt_p fuel isp flag srt xs vs p q key_raw rp rq inputs r1 r2 = Ok (size, sb) ->
  size = Z.of_nat (length (common (combine xs vs) inputs)) /\ priv_decrypt sk (of_bytes sb) = Ok (S_Protocol.zsum (map snd (common (combine xs vs) inputs)) mod (p * q) ^ 2).
Proof.
  intros L Hsrt Hp Hq Hz ND Hinj Esk0 E. destruct (second_reply_inv C X sqrt_p fuel isp flag p q Hp Hq srt _ _ _ _ _ _ _ _ _ E) as (kc & ks & es & sk' & rows & re & pk & cs & Ekc & Eks & Ees & Esk & Erows & Ere & Epk & Ecs & F).
  assert (sk' = sk) as -> by congruence. clear Esk0.
  assert (EW : with_zero r2 (sr_zero r2) = r2) by (destruct r2; reflexivity). specialize (F _ Hz). rewrite EW, E in F. clear EW E.
  destruct (cipher_new_good C L X _ _ Ekc) as [Gc Hc]. destruct (cipher_new_good C L X _ _ Eks) as [Gs Hs].
  destruct (client_rows_inv C X sqrt_p fuel isp flag p q Hp Hq kc sk rp rq Esk _ _ _ _ Erows) as [Frows Efst]. apply mapM_Forall2 in Ees, Ere, Ecs. set (k := ci_key kc * ci_key ks).
  pose proof (key_product C L kc ks Gc Gs) as Hk. fold k in Hk.
  assert (Fcs : Forall2 (fun xv e => dbl C X sqrt_p fuel k (fst xv) (el e) /\ holds sk (snd xv) e) (combine xs vs) cs).
  { eapply Forall2_trans; [|exact Frows|exact Ecs]. intros [x v] e e' [H1 H2] H3. cbn [fst snd] in *. apply bind_ok in H3. destruct H3 as (b & Eb & H3). injection H3 as <-. cbn [el ad].
    split; [exact (dbl_enc C L X sqrt_p fuel kc ks x (el e) b Gc Gs Hc H1 Eb)|exact H2]. }
  assert (Fre : Forall2 (fun x e => dbl C X sqrt_p fuel k x (el e)) inputs re).
  { eapply Forall2_trans; [|exact Ees|exact Ere]. cbn beta. intros x e e' H1 H2. apply bind_ok in H1, H2. destruct H1 as (b & Eb & H1), H2 as (b' & Eb' & H2). injection H1 as <-. injection H2 as <-. cbn [el] in *.
    unfold k. rewrite Z.mul_comm. exact (dbl_enc C L X sqrt_p fuel ks kc x b b' Gs Gc Hs Eb Eb'). }
  destruct (intersection_labels C L X sqrt_p fuel srt Hsrt (holds sk) k xs _ inputs cs re Hk Efst Hinj Fcs Fre) as (chosen & MI & Fch).
  pose proof (multi_intersection_nodup _ _ _ ltac:(rewrite Efst; exact ND) MI) as PC.
  assert (Fl : Forall2 (holds sk) (map snd chosen) (inter_of srt cs re)) by (clear -Fch; induction Fch; cbn [map]; constructor; assumption).
  pose proof (safe_prime_facts p Hp) as (_ & Hp5 & Op). pose proof (safe_prime_facts q Hq) as (_ & Hq5 & Oq). assert (Hn : 1 < p * q) by nia. assert (On : Z.odd (p * q) = true) by (rewrite Z.odd_mul, Op, Oq; reflexivity).
  assert (MP : 0 < (p * q) ^ 2) by (apply Z.pow_pos_nonneg; lia). assert (M0 : 0 < (p * q) ^ 3) by (apply Z.pow_pos_nonneg; lia).
  destruct (C24_public_roundtrip isp flag p q 2 sk (sr_gen r2) pk 0 (sr_zero r2) Hp Hq ltac:(lia) Esk Epk) as (z & Ez & Dz); [change (Z.of_nat 2) with 2; lia|].
  destruct (add_all_dec sqrt_p isp flag p q Hp Hq sk Esk pk (sr_gen r2) Epk (inter_of srt cs re) _ z 0 Fl Dz ltac:(lia)) as (c' & Ec' & Dc').
  pose proof (public_inv flag (p * q) 2 _ pk Hn On Epk) as U. rewrite (pub_encrypt_zero flag (p * q) 2 pk _ U Hz ltac:(lia)) in Ez. change (Z.of_nat 2 + 1) with 3 in Ez.
  assert (Ez' : z = pub_base pk ^ sr_zero r2 mod (p * q) ^ 3) by congruence.
  rewrite (add_all_value (p * q) 2 pk U) in Ec' by (rewrite Ez'; change (Z.of_nat 2 + 1) with 3; apply Z.mod_pos_bound; exact M0). change (Z.of_nat 2 + 1) with 3 in Ec'. rewrite Ez', Z.mul_mod_idemp_l in Ec' by lia.
  destruct (bytes_of_ok ((pub_base pk ^ sr_zero r2 * product (inter_of srt cs re)) mod (p * q) ^ 3)) as [_ V]; [apply Z.mod_pos_bound; exact M0|].
  assert (Esb : of_bytes sb = c') by congruence. rewrite Esb, Dc'. rewrite Z.add_0_l, (zsum_perm _ _ (Permutation_map snd PC)). split; [|reflexivity].
  rewrite <- (Permutation_length PC), (Forall2_len _ _ _ Fch). congruence.
Qed.

(** For a client that follows the protocol, the distribution of the server's last message over the server's encryption randomness depends only on the size
    and the sum, and on the parity of the sum of the client's own encryption exponents over the intersection: for any two server datasets that agree in the
    three, and whatever test is applied to the message, the numbers of draws (out of p q) for which the test succeeds differ by at most p + q - 1. The two
    runs may use different server keys. The generator that the server draws must not be 1 or -1 modulo p or q.
    Missing for the full property: the parity should not matter; C67_size_and_sum_refuted shows that it does. *)
Theorem C67_reply_hides_partial : forall C X sqrt_p fuel is_safe_prime flag srt elements values p q key_raw rp rq inputs inputs' r1 r1' r2 x,
  ec_laws C -> sorts srt -> safe_prime p -> safe_prime q -> 5 < p -> 5 < q -> p <= 2 * q -> q <= 2 * p ->
  NoDup elements -> hash_injective_on C X sqrt_p fuel (elements ++ inputs) -> hash_injective_on C X sqrt_p fuel (elements ++ inputs') ->
  relatively_prime_random (sr_gen r2) (p * q) = Ok x -> Z.gcd (x * x - 1) (p * q) = 1 -> 0 <= sr_zero r2 < p * q ->
  is_ok (second_reply C X sqrt_p fuel is_safe_prime flag srt elements values p q key_raw rp rq inputs r1 r2) = true ->
  is_ok (second_reply C X sqrt_p fuel is_safe_prime flag srt elements values p q key_raw rp rq inputs' r1' r2) = true ->
  length (common (combine elements values) inputs) = length (common (combine elements values) inputs') ->
  S_Protocol.zsum (map snd (common (combine elements values) inputs)) mod (p * q) ^ 2 = S_Protocol.zsum (map snd (common (combine elements values) inputs')) mod (p * q) ^ 2 ->
  Z.even (S_Protocol.zsum (map snd (common (exponents p q rp rq elements) inputs))) = Z.even (S_Protocol.zsum (map snd (common (exponents p q rp rq elements) inputs'))) ->
  forall test : outcome (Z * bytes) -> bool,
    Z.abs (S_Hide.count [p * q] (fun ds => test (second_reply C X sqrt_p fuel is_safe_prime flag srt elements values p q key_raw rp rq inputs r1 (with_zero r2 (nth 0 ds 0)))) -
           S_Hide.count [p * q] (fun ds => test (second_reply C X sqrt_p fuel is_safe_prime flag srt elements values p q key_raw rp rq inputs' r1' (with_zero r2 (nth 0 ds 0))))) <= p + q - 1.
Proof.
  intros C X sq fuel isp flag srt xs vs p q kr rp rq inputs inputs' r1 r1' r2 x L Hs Hp Hq Hp5 Hq5 Hpq Hqp ND I I' Ex Gx Hz R R' El Esum Epar test.
  destruct (second_reply C X sq fuel isp flag srt xs vs p q kr rp rq inputs r1 r2) as [[size sb]| | | |] eqn:E; try discriminate R. clear R.
  destruct (second_reply C X sq fuel isp flag srt xs vs p q kr rp rq inputs' r1' r2) as [[size' sb']| | | |] eqn:E'; try discriminate R'. clear R'.
  assert (Hsk : exists sk, private_create isp flag p q 2 = Ok sk) by (destruct (second_reply_inv C X sq fuel isp flag p q Hp Hq srt _ _ _ _ _ _ _ _ _ E) as (kc & ks & es & sk & rows & re & pk & cs & _ & _ & _ & Esk & _); exists sk; exact Esk).
  destruct Hsk as (sk & Esk).
  destruct (reply_meaning C X sq fuel isp flag srt xs vs p q kr rp rq inputs r1 r2 size sb sk L Hs Hp Hq Hz ND I Esk E) as [S1 D1].
  destruct (reply_meaning C X sq fuel isp flag srt xs vs p q kr rp rq inputs' r1' r2 size' sb' sk L Hs Hp Hq Hz ND I' Esk E') as [S2 D2].
  pose proof (reply_symbol C L X sq fuel isp flag p q Hp Hq Hp5 Hq5 srt Hs xs vs kr rp rq inputs r1 r2 size sb Hz ND I E) as J1.
  pose proof (reply_symbol C L X sq fuel isp flag p q Hp Hq Hp5 Hq5 srt Hs xs vs kr rp rq inputs' r1' r2 size' sb' Hz ND I' E') as J2.
  assert (size' = size) as -> by (rewrite S1, S2, El; reflexivity). rewrite Esum in D1.
  assert (EW : with_zero r2 (sr_zero r2) = r2) by (destruct r2; reflexivity).
  refine (two_replies C X sq fuel isp flag p q Hp Hq srt Hp5 Hq5 Hpq Hqp xs vs kr rp rq inputs inputs' r1 r1' r2 x Ex Gx sk (sr_zero r2) (sr_zero r2) size sb sb' _ Hz Hz Esk _ _ D1 D2 _ test); [rewrite EW; exact E|rewrite EW; exact E'|].
  rewrite J1, J2. exact Epar.
Qed.
Print Assumptions C67_reply_hides_partial.

(** What the message gives away besides: the client can compute its Jacobi symbol, and that is the parity of the exponents over the rows the server has. *)
Theorem C67_reply_gives_parity : forall C X sqrt_p fuel is_safe_prime flag srt elements values p q key_raw rp rq inputs r1 r2 size sb,
  ec_laws C -> sorts srt -> safe_prime p -> safe_prime q -> 5 < p -> 5 < q -> NoDup elements -> hash_injective_on C X sqrt_p fuel (elements ++ inputs) -> 0 <= sr_zero r2 < p * q ->
  second_reply C X sqrt_p fuel is_safe_prime flag srt elements values p q key_raw rp rq inputs r1 r2 = Ok (size, sb) ->
  jacobi_one p q (of_bytes sb) = Z.even (S_Protocol.zsum (map snd (common (exponents p q rp rq elements) inputs))).
Proof.
  intros C X sq fuel isp flag srt xs vs p q kr rp rq inputs r1 r2 size sb L Hs Hp Hq Hp5 Hq5 ND I Hz E.
  exact (reply_symbol C L X sq fuel isp flag p q Hp Hq Hp5 Hq5 srt Hs xs vs kr rp rq inputs r1 r2 size sb Hz ND I E).
Qed.
Print Assumptions C67_reply_gives_parity.

(** ** A run in which it matters *)
Definition sum_safe (z : Z) : bool := (z =? 47) || (z =? 59).
Lemma safe_59 : safe_prime 59.
Proof. split; [apply prime_check; [lia|vm_compute; reflexivity]|]. exists 29. split; [apply prime_check; [lia|vm_compute; reflexivity]|lia]. Qed.
Definition sum_rand (k : Z) : server_rand := {| sr_key := k; sr_gen := [19]; sr_zero := 17 |}.
(** A client with three customers who all spent 5, and a server that has one customer. *)
Definition three : list bytes := [demo_id 65; demo_id 66; demo_id 67].
Notation sum_reply customer d :=
  (second_reply toy spread_ext toy_sqrt 20 sum_safe false isort three [5; 5; 5] 47 59 11 (fun i => Z.of_nat i / 2) (fun _ => 6) [customer] (sum_rand 29) (with_zero (sum_rand 31) d)).
Lemma every_draw C X sqrt_p fuel isp flag p q srt xs vs key_raw rp rq inputs r1 r2 : safe_prime p -> safe_prime q ->
  is_ok (second_reply C X sqrt_p fuel isp flag srt xs vs p q key_raw rp rq inputs r1 r2) = true ->
  forall d, 0 <= d < p * q -> exists size sb, second_reply C X sqrt_p fuel isp flag srt xs vs p q key_raw rp rq inputs r1 (with_zero r2 d) = Ok (size, sb).
Proof.
  intros Hp Hq R d Hd. destruct (second_reply C X sqrt_p fuel isp flag srt xs vs p q key_raw rp rq inputs r1 r2) as [out| | | |] eqn:E; try discriminate R.
  destruct (second_reply_inv C X sqrt_p fuel isp flag p q Hp Hq srt _ _ _ _ _ _ _ _ _ E) as (kc & ks & es & sk & rows & re & pk & cs & _ & _ & _ & _ & _ & _ & _ & _ & F).
  eexists. eexists. exact (F d Hd).
Qed.
Lemma sum_runs k : In k [65; 66; 67] -> is_ok (second_reply toy spread_ext toy_sqrt 20 sum_safe false isort three [5; 5; 5] 47 59 11 (fun i => Z.of_nat i / 2) (fun _ => 6) [demo_id k] (sum_rand 29) (sum_rand 31)) = true.
Proof. intros [<-|[<-|[<-|[]]]]; vm_compute; reflexivity. Qed.
Lemma sum_reply_ok k : In k [65; 66; 67] -> forall d, 0 <= d < 47 * 59 -> exists size sb, sum_reply (demo_id k) d = Ok (size, sb).
Proof. intros Hk. exact (every_draw _ _ _ _ _ _ _ _ _ _ _ _ _ _ _ _ _ safe_47 safe_59 (sum_runs k Hk)). Qed.
Lemma three_nodup : NoDup three.
Proof. repeat constructor; cbn [In]; intros H; decompose [or] H; try discriminate; contradiction. Qed.
Lemma three_injective k : In k [65; 66; 67] -> hash_injective_on toy spread_ext toy_sqrt 20 (three ++ [demo_id k]).
Proof.
  intros Hk a b Ha Hb. assert (W : forall c, In c (three ++ [demo_id k]) -> In c three).
  { intros c Hc. apply in_app_or in Hc. destruct Hc as [Hc|[<-|[]]]; [exact Hc|]. destruct Hk as [<-|[<-|[<-|[]]]]; cbn [three In]; tauto. }
  apply demo_injective; apply W; assumption.
Qed.

(** What the client computes from the message. *)
Definition symbol_test (o : outcome (Z * bytes)) : bool := match o with Ok r => jacobi_one 47 59 (of_bytes (snd r)) | _ => false end.
Lemma sum_symbol k d : In k [65; 66; 67] -> 0 <= d < 47 * 59 ->
  symbol_test (sum_reply (demo_id k) d) = Z.even (S_Protocol.zsum (map snd (common (exponents 47 59 (fun i => Z.of_nat i / 2) (fun _ => 6) three) [demo_id k]))).
Proof.
  intros Hk Hd. destruct (sum_reply_ok k Hk d Hd) as (size & sb & E). rewrite E. cbn [symbol_test snd].
  exact (C67_reply_gives_parity toy spread_ext toy_sqrt 20 sum_safe false isort three [5; 5; 5] 47 59 11 (fun i => Z.of_nat i / 2) (fun _ => 6) [demo_id k] (sum_rand 29) (with_zero (sum_rand 31) d) size sb
    toy_laws isort_sorts safe_47 safe_59 ltac:(lia) ltac:(lia) three_nodup (three_injective k Hk) Hd E).
Qed.

(** Size and sum are 1 and 5 whichever customer the server has; yet the message tells the third customer from the first two, whatever the server draws. *)
Theorem C67_size_and_sum_refuted : exists test : outcome (Z * bytes) -> bool,
  (forall k, In k [65; 66; 67] -> length (common (combine three [5; 5; 5]) [demo_id k]) = 1%nat /\ S_Protocol.zsum (map snd (common (combine three [5; 5; 5]) [demo_id k])) = 5) /\
  (forall d, 0 <= d < 47 * 59 -> test (sum_reply (demo_id 65) d) = true /\ test (sum_reply (demo_id 66) d) = true /\ test (sum_reply (demo_id 67) d) = false).
Proof.
  exists symbol_test. split.
  - intros k [<-|[<-|[<-|[]]]]; vm_compute; split; reflexivity.
  - intros d Hd. split; [|split].
    + transitivity (Z.even (S_Protocol.zsum (map snd (common (exponents 47 59 (fun i => Z.of_nat i / 2) (fun _ => 6) three) [demo_id 65])))); [apply sum_symbol; [cbn [In]; tauto|exact Hd]|vm_compute; reflexivity].
    + transitivity (Z.even (S_Protocol.zsum (map snd (common (exponents 47 59 (fun i => Z.of_nat i / 2) (fun _ => 6) three) [demo_id 66])))); [apply sum_symbol; [cbn [In]; tauto|exact Hd]|vm_compute; reflexivity].
    + transitivity (Z.even (S_Protocol.zsum (map snd (common (exponents 47 59 (fun i => Z.of_nat i / 2) (fun _ => 6) three) [demo_id 67])))); [apply sum_symbol; [cbn [In]; tauto|exact Hd]|vm_compute; reflexivity].
Qed.
Print Assumptions C67_size_and_sum_refuted.

(** The first two customers, on the other hand, cannot be told apart by more than 105 of the 2773 draws. *)
Example C67_ex : forall test : outcome (Z * bytes) -> bool,
  Z.abs (S_Hide.count [47 * 59] (fun ds => test (sum_reply (demo_id 65) (nth 0 ds 0))) - S_Hide.count [47 * 59] (fun ds => test (sum_reply (demo_id 66) (nth 0 ds 0)))) <= 105.
Proof.
  intros test.
  apply (C67_reply_hides_partial toy spread_ext toy_sqrt 20 sum_safe false isort three [5; 5; 5] 47 59 11 (fun i => Z.of_nat i / 2) (fun _ => 6) [demo_id 65] [demo_id 66] (sum_rand 29) (sum_rand 29) (sum_rand 31) 19
    toy_laws isort_sorts safe_47 safe_59 ltac:(lia) ltac:(lia) ltac:(lia) ltac:(lia) three_nodup).
  - apply three_injective. cbn; tauto.
  - apply three_injective. cbn; tauto.
  - vm_compute. reflexivity.
  - vm_compute. reflexivity.
  - cbn; lia.
  - apply sum_runs. cbn; tauto.
  - apply sum_runs. cbn; tauto.
  - vm_compute. reflexivity.
  - vm_compute. reflexivity.
  - vm_compute. reflexivity.
Qed.
