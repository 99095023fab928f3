(** Theorems about what a message from the other party can do to a process (C58). *)
From Verif Require Import Base M_BigNum L_BigNum M_Num L_Num M_DJ L_DJ M_EC L_EC L_Toy M_Group S_Group P_Group M_Cipher S_Cipher L_Cipher P_Cipher L_ElGamal
  M_Paillier S_Paillier L_Paillier L_PaillierKey P_Paillier M_Protocol S_Protocol L_Protocol P_Protocol S_Safe.

Lemma survives_ok {A} (x : A) : survives (Ok x). Proof. split; discriminate. Qed.
Lemma survives_err {A} e : survives (@Err A e). Proof. split; discriminate. Qed.
Lemma survives_diverge {A} : survives (@Diverge A). Proof. split; discriminate. Qed.
Local Hint Resolve survives_ok survives_err survives_diverge : surv.
Lemma survives_bind {A B} (o : outcome A) (f : A -> outcome B) : survives o -> (forall x, o = Ok x -> survives (f x)) -> survives (bind o f).
Proof. intros [H1 H2] Hf. destruct o; cbn [bind]; auto with surv; congruence. Qed.
Lemma survives_mapM {A B} (f : A -> outcome B) xs : (forall x, In x xs -> survives (f x)) -> survives (mapM f xs).
Proof.
  induction xs as [|x xs IH]; intros H; cbn [mapM]; auto with surv. apply survives_bind; [apply H; left; reflexivity|]. intros y _. apply survives_bind; [apply IH; intros z Hz; apply H; right; exact Hz|].
  intros; auto with surv.
Qed.
Lemma alive_survives o : alive o -> survives o.
Proof. intros [->|(e & ->)]; auto with surv. Qed.
Lemma survives_reencrypt C c s : ec_laws C -> good C c -> survives (cipher_reencrypt C c s).
Proof.
  intros L G. unfold cipher_reencrypt. apply survives_bind; [destruct (point_of_bytes_cases C L s) as [(P & -> & _)| ->]; auto with surv|].
  intros P _. unfold point_to_bytes. destruct (is_inf C _); auto with surv.
Qed.
Lemma odd_fact_coprime n : Z.odd n = true -> fact_coprime n 2.
Proof.
  intros Ho i Hi. assert (i = 1 \/ i = 2)%nat as [-> | ->] by lia; [apply Z.gcd_1_l|]. exact (gcd_pow2_odd n 1 ltac:(lia) Ho).
Qed.
Lemma draws_cases raws n : 1 < n -> (exists i, In i raws /\ Z.gcd (i mod n) n = 1) \/ relatively_prime_random raws n = Diverge.
Proof.
  intros Hn. induction raws as [|r rest IH]; [right; reflexivity|]. cbn [relatively_prime_random]. unfold generate_rand_less_than. destruct (Z.leb_spec n 0); [lia|]. cbn [bind]. unfold bn_gcd.
  destruct (Z.ltb_spec 1 (Z.gcd (r mod n) n)) as [G|G].
  - destruct IH as [(i & Hi & Gi)|IH]; [left; exists i; split; [right; exact Hi|exact Gi]|right; exact IH].
  - left. exists r. split; [left; reflexivity|]. pose proof (Z.gcd_nonneg (r mod n) n). destruct (Z.eq_dec (Z.gcd (r mod n) n) 0) as [E0|]; [|lia]. apply Z.gcd_eq_0_r in E0. lia.
Qed.
Lemma public_cases flag n raws : 1 < n -> Z.odd n = true -> (exists pk, public_create flag n 2 raws = Ok pk) \/ public_create flag n 2 raws = Diverge.
Proof.
  intros Hn Ho. destruct (draws_cases raws n Hn) as [H|H]; [left; exact (public_create_ok (fun _ => true) flag n 2 raws Hn Ho (odd_fact_coprime n Ho) H)|right].
  unfold public_create. rewrite get_powers_length. cbn [Nat.add Nat.sub]. rewrite get_powers_at by lia. cbn [bind]. unfold generator_for_safe_modulus. rewrite H. reflexivity.
Qed.
Lemma add_all_ok flag n raws pk es : 1 < n -> Z.odd n = true -> public_create flag n 2 raws = Ok pk -> forall c, 0 <= c -> exists c', add_all pk c es = Ok c' /\ 0 <= c'.
Proof.
  intros Hn Ho E. pose proof (public_inv flag n 2 raws pk Hn Ho E) as V. induction es as [|e es IH]; intros c Hc; cbn [add_all]; [eauto|].
  destruct (pub_add_ok n 2 pk V c (of_bytes (ad e))) as (c' & E' & R & _). rewrite E'. cbn [bind]. apply IH. apply R.
Qed.

Section Server.
Variable C : ec.
Hypothesis L : ec_laws C.
Variable flag : bool.
Variable srt : list elem -> list elem.

(** The modulus 1 with the ordinary exponentiation: every number is 0. *)
Lemma public_one raws : public_create false 1 2 raws = Diverge \/ exists pk, public_create false 1 2 raws = Ok pk /\ pub_modulus pk = 1 /\ forall raw, pub_encrypt false pk 0 raw = Ok 0.
Proof.
  destruct raws as [|r rest]; [left; reflexivity|right].
  assert (E : public_create false 1 2 (r :: rest) = public_create false 1 2 [0]).
  { unfold public_create, generator_for_safe_modulus. cbn [relatively_prime_random]. unfold generate_rand_less_than. change (1 <=? 0) with false. cbv iota. rewrite !Z.mod_1_r. reflexivity. }
  rewrite E. eexists. split; [vm_compute; reflexivity|]. split; [reflexivity|]. intros raw. unfold pub_encrypt, generate_rand_less_than. cbn [pub_n]. change (1 <=? 0) with false. cbv iota. rewrite Z.mod_1_r. reflexivity.
Qed.
Lemma add_all_one pk es : pub_modulus pk = 1 -> forall c, 0 <= c -> exists c', add_all pk c es = Ok c' /\ 0 <= c'.
Proof.
  intros H. induction es as [|e es IH]; intros c Hc; cbn [add_all]; [eauto|]. unfold pub_add. rewrite H, bn_mod_mul_ok by lia. cbn [bind]. apply IH. apply Z.mod_pos_bound. lia.
Qed.
(** With the 2^k-ary exponentiation the table cannot be built: 1 is not less than the modulus. *)
Lemma public_one_two_k_ary raws : raws <> [] -> public_create true 1 2 raws = Crash.
Proof.
  destruct raws as [|r rest]; [congruence|intros _]. unfold public_create, generator_for_safe_modulus. cbn [relatively_prime_random]. unfold generate_rand_less_than. change (1 <=? 0) with false. cbv iota. rewrite !Z.mod_1_r. vm_compute. reflexivity.
Qed.
Lemma intersection_survives r st key es rs : (forall c, sv_cipher st = Some c -> good C c) -> Z.odd (of_bytes key) = true -> (flag = true -> of_bytes key <> 1) ->
  survives (compute_intersection C flag srt r st key es rs).
Proof.
  intros G Ho Hf. unfold compute_intersection. destruct (sv_cipher st) as [c|]; [|auto with surv]. specialize (G c eq_refl).
  pose proof (of_bytes_nonneg key) as H0. assert (Hn : 1 < of_bytes key \/ of_bytes key = 1) by (destruct (Z.eq_dec (of_bytes key) 0) as [E|]; [rewrite E in Ho; discriminate|lia]).
  destruct Hn as [Hn|Hn].
  2:{ assert (F : flag = false) by (destruct flag; [exfalso; apply Hf; auto|reflexivity]). rewrite F, Hn. destruct (public_one (sr_gen r)) as [->|(pk & -> & Hm & He)]; cbn [bind]; [auto with surv|].
      apply survives_bind; [apply survives_mapM; intros e _; apply survives_bind; [exact (survives_reencrypt C c (el e) L G)|intros; auto with surv]|].
      intros cs _. cbv zeta. rewrite He. cbn [bind]. match goal with |- context [add_all pk 0 ?l] => destruct (add_all_one pk l Hm 0 ltac:(lia)) as (s & Es & Ps) end.
      rewrite Es. cbn [bind]. destruct (to_bytes_of s Ps) as (b & Eb & _). rewrite Eb. cbn [bind]. auto with surv. }
  destruct (public_cases flag (of_bytes key) (sr_gen r) Hn Ho) as [(pk & Ek)|Ek]; rewrite Ek; cbn [bind]; [|auto with surv].
  apply survives_bind.
  - apply survives_mapM. intros e _. apply survives_bind; [exact (survives_reencrypt C c (el e) L G)|intros; auto with surv].
  - intros cs _. cbv zeta. pose proof (public_inv flag _ 2 _ pk Hn Ho Ek) as V. destruct (pub_encrypt_ok (fun _ => true) flag (of_bytes key) 2 pk V 0 (sr_zero r)) as (z & Ez & Rz & _); [split; [lia|apply Z.pow_pos_nonneg; lia]|].
    rewrite Ez. cbn [bind]. match goal with |- context [add_all pk z ?l] => destruct (add_all_ok flag (of_bytes key) (sr_gen r) pk l Hn Ho Ek z) as (s & Es & Ps); [apply Rz|] end.
    rewrite Es. cbn [bind]. destruct (to_bytes_of s Ps) as (b & Eb & _). rewrite Eb. cbn [bind]. auto with surv.
Qed.
(** With an even modulus the constructor of the public key aborts as soon as it has drawn a unit. *)
Lemma public_even raws n : 0 <= n -> Z.odd n = false -> raws <> [] -> (n = 0 \/ exists i, In i raws /\ Z.gcd (i mod n) n = 1) -> public_create flag n 2 raws = Crash.
Proof.
  intros Hn Ho Hr Hd. destruct (Z.eq_dec n 0) as [->|Hn0].
  - unfold public_create. rewrite get_powers_length. cbn [Nat.add Nat.sub]. rewrite get_powers_at by lia. cbn [bind]. unfold generator_for_safe_modulus. destruct raws as [|r rest]; [congruence|]. reflexivity.
  - destruct Hd as [Hd|Hd]; [congruence|]. assert (H1 : 1 < n) by (destruct (Z.eq_dec n 1) as [->|]; [discriminate|lia]).
    unfold public_create. rewrite get_powers_length. cbn [Nat.add Nat.sub]. rewrite get_powers_at by lia. cbn [bind].
    destruct (relprime_random_ok (fun _ => true) raws n H1 Hd) as (x & Ex). unfold generator_for_safe_modulus. rewrite Ex. cbn [bind]. unfold bn_mod_sqr. rewrite bn_mod_ok by lia. cbn [bind].
    rewrite get_powers_at by lia. cbn [bind]. assert (HM : 0 < n ^ 3) by (apply Z.pow_pos_nonneg; lia). change (Z.of_nat 3) with 3. change (Z.of_nat 2) with 2.
    rewrite bn_mod_exp_ok by (try apply Z.pow_nonneg; lia). cbn [bind]. 
    assert (Hev : (2 | n)) by (rewrite <- Z.negb_even in Ho; apply negb_false_iff in Ho; apply Z.even_spec in Ho; destruct Ho as (k & ->); exists k; ring).
    assert (Hev3 : (2 | n ^ 3)) by (destruct Hev as (k & ->); exists (k * (k * 2) ^ 2); ring).
    assert (HG : Z.gcd 2 (n ^ 3) <> 1). { intros G. assert (D : (2 | Z.gcd 2 (n ^ 3))) by (apply Z.gcd_greatest; [apply Z.divide_refl|exact Hev3]). rewrite G in D. apply Z.divide_1_r_nonneg in D; lia. }
    assert (HP : get_precomp n (n ^ 3) 2 = Crash).
    { unfold get_precomp. cbn [precomp_loop]. destruct (bn_mod_inverse_ok 1 (n ^ 3) HM (Z.gcd_1_l _)) as (i1 & E1 & _). rewrite E1. cbn [value_or_crash bind]. rewrite !bn_mod_mul_ok by exact HM. cbn [bind].
      rewrite bn_mod_mul_ok by exact HM. cbn [bind]. change (1 + 1) with 2. rewrite (bn_mod_inverse_err 2 (n ^ 3) HM HG). reflexivity. }
    unfold fbe_create. destruct flag; [|cbn [bind]; rewrite HP; reflexivity]. unfold tk_create. rewrite mont_context_bad; [reflexivity|]. right.
    destruct (Z.odd (n ^ 3)) eqn:O; [|reflexivity]. exfalso. apply HG. exact (gcd_pow2_odd _ 1 ltac:(lia) O).
Qed.
End Server.

Section Histories.
Variable C : ec.
Hypothesis L : ec_laws C.
Variable X : externals.
Variable sqrt_p : Z -> Z.
Hypothesis Hsq : sqrt_ok (ec_p C) sqrt_p.
Hypothesis Hb : bit_length (ec_p C) <= 129024.
Variable fuel : nat.
Variable flag : bool.
Variable srt : list elem -> list elem.

Lemma enc_survives c x : good C c -> ci_hash c = 0 -> survives (enc C X sqrt_p fuel c x).
Proof.
  intros G H0. destruct (C33_hash_outcomes C sqrt_p 256 (sha256 X) fuel x L Hsq ltac:(lia) Hb) as [(P & E & _)|E].
  - rewrite (enc_ok C L X sqrt_p fuel c x P G H0 E (hash_not_inf C L X sqrt_p Hsq fuel x P E)). auto with surv.
  - unfold enc, cipher_encrypt. rewrite H0. change (hash_internal C X sqrt_p None fuel 0 x) with (hash_to_curve C sqrt_p 256 (sha256 X) fuel x). rewrite E. cbn [bind]. auto with surv.
Qed.

Lemma server_cipher_good inputs h st : server_history C X sqrt_p fuel flag srt inputs h st -> forall c, sv_cipher st = Some c -> good C c.
Proof.
  induction 1 as [|h st r snd m st' reply status _ IH E A]; intros c Hc; [discriminate|]. unfold server_handle in E. destruct (sv_finished st); [injection E as <- <- <-; auto|]. destruct m as [[|key es rs|]|]; try (injection E as <- <- <-; auto; fail).
  - unfold encrypt_set in E. destruct (sv_cipher st) as [c0|] eqn:Es; [injection E as <- <- <-; apply IH; congruence|]. destruct (cipher_new_ok C L (sr_key r)) as (c1 & En). rewrite En in E. destruct (cipher_new_good C L X _ _ En) as [G _].
    assert (c = c1); [|subst; exact G]. destruct (mapM _ (sv_inputs st)); injection E as <- <- <-; cbn in Hc; congruence.
  - destruct (compute_intersection C flag srt r st key es rs) as [[sz sb]| | | |]; injection E as <- <- <-; apply IH; exact Hc.
Qed.

Lemma server_survives inputs h st r send m st' reply status : server_history C X sqrt_p fuel flag srt inputs h st -> (forall x, alive (send x)) -> odd_modulus flag m ->
  server_handle C X sqrt_p fuel flag srt r send st m = (st', reply, status) -> survives status.
Proof.
  intros H Hs Hm E. pose proof (server_cipher_good _ _ _ H) as G. unfold server_handle in E. destruct (sv_finished st); [injection E as <- <- <-; auto with surv|]. destruct m as [[|key es rs|]|]; try (injection E as <- <- <-; auto with surv; fail).
  - unfold encrypt_set in E. destruct (sv_cipher st) as [c0|] eqn:Es; [injection E as <- <- <-; auto with surv|]. destruct (cipher_new_ok C L (sr_key r)) as (c1 & En). rewrite En in E. destruct (cipher_new_good C L X _ _ En) as [G1 H0].
    match type of E with (match ?o with _ => _ end = _) => assert (S : survives o) end.
    { apply survives_mapM. intros x _. apply survives_bind; [exact (enc_survives c1 x G1 H0)|intros; auto with surv]. }
    destruct (mapM _ (sv_inputs st)); injection E as <- <- <-; try (destruct S; congruence); auto with surv. apply alive_survives, Hs.
  - cbn in Hm. pose proof (intersection_survives C L flag srt r st key es rs G (proj1 Hm) (proj2 Hm)) as S.
    destruct (compute_intersection C flag srt r st key es rs) as [[sz sb]| | | |]; injection E as <- <- <-; try (destruct S; congruence); auto with surv. apply alive_survives, Hs.
Qed.

(** ** The client *)
Variable isp : Z -> bool.
Variables (elements : list bytes) (values : list Z) (p q key_raw : Z).
Hypothesis Hp : safe_prime p.
Hypothesis Hq : safe_prime q.
Hypothesis Hlen : (length elements <= length values)%nat.

Definition client_ok (st : client) : Prop :=
  cl_elements st = elements /\ cl_values st = values /\ cl_p st = p /\ cl_q st = q /\ good C (cl_cipher st) /\ ci_hash (cl_cipher st) = 0 /\
  (forall sk, cl_paillier st = Some sk -> private_create isp flag p q 2 = Ok sk).
Lemma client_ok_init cl : client_create C elements values p q key_raw = Ok cl -> client_ok cl.
Proof.
  unfold client_create. destruct (cipher_new_ok C L key_raw) as (c & Ec). rewrite Ec. cbn [value_or_crash bind]. intros E. destruct (cipher_new_good C L X _ _ Ec) as [G H0].
  injection E as <-. unfold client_ok. cbn. repeat split; try assumption; try apply G. intros; discriminate.
Qed.
Lemma client_ok_step rp rq send st m st' reply status : client_ok st -> client_handle C X sqrt_p fuel isp flag srt rp rq send st m = (st', reply, status) -> client_ok st'.
Proof.
  intros (I1 & I2 & I3 & I4 & I5 & I6 & I7) E. unfold client_handle in E. destruct (cl_finished st); [injection E as <- <- <-; unfold client_ok; tauto|].
  destruct m as [[es|sz sb|]|]; try (injection E as <- <- <-; unfold client_ok; tauto).
  - unfold reencrypt_set in E. rewrite I3, I4 in E. destruct (private_create isp flag p q 2) as [sk|e| | |] eqn:Ek; try (injection E as <- <- <-; unfold client_ok; rewrite Ek; tauto).
    match type of E with (match ?o with _ => _ end = _) => destruct o as [[[pkb rows] re]|e| | |] end; injection E as <- <- <-; unfold client_ok; cbn; repeat (split; [assumption || reflexivity|]); intros sk' Hk; congruence.
  - destruct (decrypt_sum st sz sb) as [[a b]|e| | |]; injection E as <- <- <-; unfold client_ok; cbn; tauto.
Qed.
Lemma client_ok_history cl0 h st : client_create C elements values p q key_raw = Ok cl0 -> client_history C X sqrt_p fuel isp flag srt cl0 h st -> client_ok st.
Proof. intros E0. induction 1 as [|h st rp rq snd m st' reply status _ IH E A]; [exact (client_ok_init _ E0)|exact (client_ok_step _ _ _ _ _ _ _ _ IH E)]. Qed.

Lemma rows_survive c sk rp rq : good C c -> ci_hash c = 0 -> private_create isp flag p q 2 = Ok sk -> forall xs vs i, (length xs <= length vs)%nat -> survives (client_rows C X sqrt_p fuel flag c sk rp rq i xs vs).
Proof.
  intros G H0 Ek. pose proof (private_inv isp flag p q 2 sk Hp Hq ltac:(lia) Ek) as K. induction xs as [|x xs IH]; intros vs i Hl; cbn [client_rows]; auto with surv.
  apply survives_bind; [exact (enc_survives c x G H0)|]. intros e _. destruct vs as [|v vs]; [cbn [length] in Hl; lia|].
  destruct (Z_le_dec 0 v) as [V1|V1]; [destruct (Z_lt_dec v ((p * q) ^ Z.of_nat 2)) as [V2|V2]|].
  - destruct (priv_encrypt_ok flag p q 2 sk K v (rp i) (rq i) (conj V1 V2)) as (ct & Ect & Bct & _). rewrite Ect. cbn [bind]. destruct (to_bytes_of ct ltac:(apply Bct)) as (b & Eb & _). rewrite Eb. cbn [bind].
    apply survives_bind; [apply IH; cbn [length] in Hl; lia|]. intros; auto with surv.
  - rewrite (priv_encrypt_bad flag p q 2 sk K v (rp i) (rq i)) by lia. cbn [bind]. auto with surv.
  - rewrite (priv_encrypt_bad flag p q 2 sk K v (rp i) (rq i)) by lia. cbn [bind]. auto with surv.
Qed.
Lemma client_survives st rp rq send m st' reply status : (exists sk, private_create isp flag p q 2 = Ok sk) -> client_ok st -> (forall x, alive (send x)) -> decryptable (p * q) m ->
  client_handle C X sqrt_p fuel isp flag srt rp rq send st m = (st', reply, status) -> survives status.
Proof.
  intros (sk & Ek) (I1 & I2 & I3 & I4 & I5 & I6 & I7) Hs Hm E. pose proof (private_inv isp flag p q 2 sk Hp Hq ltac:(lia) Ek) as K.
  unfold client_handle in E. destruct (cl_finished st); [injection E as <- <- <-; auto with surv|]. destruct m as [[es|sz sb|]|]; try (injection E as <- <- <-; auto with surv; fail).
  - unfold reencrypt_set in E. rewrite I3, I4, Ek in E.
    match type of E with (match ?o with _ => _ end = _) => assert (S : survives o) end.
    { destruct (safe_prime_facts p Hp) as (_ & P5 & _), (safe_prime_facts q Hq) as (_ & Q5 & _). destruct (to_bytes_of (p * q) ltac:(nia)) as (b & Eb & _). rewrite Eb. cbn [bind].
      apply survives_bind; [rewrite I1, I2; exact (rows_survive _ sk rp rq I5 I6 Ek _ _ _ Hlen)|]. intros rows _. apply survives_bind; [|intros; auto with surv].
      apply survives_mapM. intros e _. apply survives_bind; [exact (survives_reencrypt C _ (el e) L I5)|intros; auto with surv]. }
    match type of E with (match ?o with _ => _ end = _) => destruct o as [[[pkb rows] re]|e| | |] end; injection E as <- <- <-; try (destruct S; congruence); auto with surv. apply alive_survives, Hs.
  - assert (S : survives (decrypt_sum st sz sb)).
    { unfold decrypt_sum. destruct (cl_paillier st) as [sk'|] eqn:Es; [|auto with surv]. assert (sk' = sk) by (specialize (I7 _ eq_refl); congruence). subst sk'. apply survives_bind; [|intros; auto with surv].
      cbn in Hm. pose proof (of_bytes_nonneg sb) as Hnn. destruct (Z_lt_dec (of_bytes sb) ((p * q) ^ 3)) as [R|R].
      - destruct Hm as [Hm|Hm]; [lia|]. destruct (unit_plain p q 2 sk K (of_bytes sb) Hm) as (d & Bd & Pd). rewrite (priv_decrypt_is p q 2 sk K (of_bytes sb) d); [auto with surv| |apply Bd|exact Pd]. split; [exact Hnn|exact R].
      - rewrite (priv_decrypt_bad p q 2 sk K (of_bytes sb)); [auto with surv|]. intros [_ R']. apply R. exact R'. }
    destruct (decrypt_sum st sz sb) as [[a b]|e| | |]; injection E as <- <- <-; try (destruct S; congruence); auto with surv.
Qed.
Lemma client_paillier_history cl0 h st : client_create C elements values p q key_raw = Ok cl0 -> client_history C X sqrt_p fuel isp flag srt cl0 h st ->
  (exists sk, private_create isp flag p q 2 = Ok sk) -> cl_finished st = false -> (exists e es, In e h /\ ce_msg e = Some (SRoundOne es)) -> exists sk, cl_paillier st = Some sk /\ private_create isp flag p q 2 = Ok sk.
Proof.
  intros E0 H Hk. induction H as [|h st rp rq snd m st' reply status H IH E A]; intros Hf (e & es & Hin & He); [contradiction|].
  pose proof (client_ok_history _ _ _ E0 H) as (_ & _ & I3 & I4 & _ & _ & _). destruct Hk as (sk & Ek).
  unfold client_handle in E. destruct (cl_finished st) eqn:Ef; [injection E as <- <- <-; congruence|].
  apply in_app_or in Hin. destruct Hin as [Hin|[<-|[]]].
  - specialize (IH eq_refl (ex_intro _ e (ex_intro _ es (conj Hin He)))). destruct m as [[es'|sz sb|]|]; try (injection E as <- <- <-; exact IH).
    + unfold reencrypt_set in E. rewrite I3, I4, Ek in E. match type of E with (match ?o with _ => _ end = _) => destruct o as [[[pkb rows] re]|e'| | |] end; injection E as <- <- <-; exists sk; cbn; split; (reflexivity || exact Ek).
    + destruct (decrypt_sum st sz sb) as [[a b]|e'| | |]; injection E as <- <- <-; exact IH.
  - cbn in He. subst m. unfold reencrypt_set in E. rewrite I3, I4, Ek in E. match type of E with (match ?o with _ => _ end = _) => destruct o as [[[pkb rows] re]|e'| | |] end; injection E as <- <- <-; exists sk; cbn; split; (reflexivity || exact Ek).
Qed.
End Histories.

(** ** C58 *)
(** Whatever was sent before, no message makes the server abort or misbehave, provided a Paillier modulus in it is odd (and, where the 2^k-ary
    exponentiation is selected, not 1). *)
Theorem C58_server_survives_partial : forall C X sqrt_p fuel flag srt inputs h st r send m st' reply status,
  ec_laws C -> sqrt_ok (ec_p C) sqrt_p -> bit_length (ec_p C) <= 129024 ->
  server_history C X sqrt_p fuel flag srt inputs h st -> (forall x, alive (send x)) -> odd_modulus flag m ->
  server_handle C X sqrt_p fuel flag srt r send st m = (st', reply, status) -> survives status.
Proof. intros C X sq fuel flag srt inputs h st r send m st' reply status L Hsq Hb H Hs Hm E. exact (server_survives C L X sq Hsq Hb fuel flag srt inputs h st r send m st' reply status H Hs Hm E). Qed.
Print Assumptions C58_server_survives_partial.
Example C58_server_ex : exists st r, server_history toy spread_ext toy_sqrt 20 false isort [demo_id 65] r st /\ sv_cipher st <> None /\
  let m := Some (CRoundOne [zb 15] [{| el := [zb 1]; ad := [] |}] []) in odd_modulus false m /\
  demo_reply m st = (st, None, Err InvalidArgument).
Proof.
  destruct (demo_reply (Some CStart) (server_init [demo_id 65])) as [[st a] o] eqn:E. exists st, [{| se_rand := demo_rand 29; se_sink := (fun _ => Ok tt); se_msg := Some CStart; se_reply := a; se_status := o |}].
  split; [|split]. 
  - apply (sh_step toy spread_ext toy_sqrt 20 false isort [demo_id 65] [] (server_init [demo_id 65])); [constructor|exact E|].
    assert (Ho : snd (demo_reply (Some CStart) (server_init [demo_id 65])) = Ok tt) by (vm_compute; reflexivity). rewrite E in Ho. cbn in Ho. left. exact Ho.
  - assert (Ho : match sv_cipher (fst (fst (demo_reply (Some CStart) (server_init [demo_id 65])))) with Some _ => True | None => False end) by (vm_compute; exact I). rewrite E in Ho. cbn in Ho. destruct (sv_cipher st); [discriminate|contradiction].
  - vm_compute in E. injection E as <- <- <-. split; [split; [reflexivity|discriminate]|vm_compute; reflexivity].
Qed.

(** The guard is exact: a server that answered a start aborts on every round one with another modulus, whatever else is in it, once it has drawn a unit. *)
Theorem C58_server_aborts : forall C X sqrt_p fuel flag srt inputs h st r send key es rs start,
  ec_laws C -> sqrt_ok (ec_p C) sqrt_p -> bit_length (ec_p C) <= 129024 ->
  server_history C X sqrt_p fuel flag srt inputs h st -> replies h = [start] ->
  ~ odd_modulus flag (Some (CRoundOne key es rs)) -> sr_gen r <> [] -> (of_bytes key = 0 \/ exists i, In i (sr_gen r) /\ Z.gcd (i mod of_bytes key) (of_bytes key) = 1) ->
  server_handle C X sqrt_p fuel flag srt r send st (Some (CRoundOne key es rs)) = (st, None, Crash).
Proof.
  intros C X sq fuel flag srt inputs h st r send key es rs start L Hsq Hb H Hr Ho Hne Hd. destruct (history_phase C L X sq Hsq Hb fuel flag srt inputs h st H) as [_ [(_ & _ & E)|[((c & Hc) & Hf & _)|(_ & _ & (a & n & b & E))]]]; try congruence.
  assert (K : public_create flag (of_bytes key) 2 (sr_gen r) = Crash).
  { cbn [odd_modulus] in Ho. destruct (Z.odd (of_bytes key)) eqn:O; [|exact (public_even flag (sr_gen r) (of_bytes key) (of_bytes_nonneg key) O Hne Hd)].
    destruct flag; [|exfalso; apply Ho; split; [reflexivity|discriminate]]. destruct (Z.eq_dec (of_bytes key) 1) as [->|N]; [exact (public_one_two_k_ary _ Hne)|exfalso; apply Ho; split; auto]. }
  unfold server_handle. rewrite Hf. unfold compute_intersection. rewrite Hc. rewrite K. reflexivity.
Qed.
Print Assumptions C58_server_aborts.
(** The unguarded claim is false: an empty public key kills a server that answered a start. *)
Theorem C58_server_survives_refuted : ~ (forall C X sqrt_p fuel flag srt inputs h st r send m st' reply status,
  ec_laws C -> sqrt_ok (ec_p C) sqrt_p -> bit_length (ec_p C) <= 129024 ->
  server_history C X sqrt_p fuel flag srt inputs h st -> (forall x, alive (send x)) ->
  server_handle C X sqrt_p fuel flag srt r send st m = (st', reply, status) -> survives status).
Proof.
  intros F. destruct (demo_reply (Some CStart) (server_init [demo_id 65])) as [[st a] o] eqn:E.
  assert (Ho : snd (demo_reply (Some CStart) (server_init [demo_id 65])) = Ok tt) by (vm_compute; reflexivity). rewrite E in Ho. cbn in Ho. 
  assert (Hist : server_history toy spread_ext toy_sqrt 20 false isort [demo_id 65] ([] ++ [{| se_rand := demo_rand 29; se_sink := (fun _ => Ok tt); se_msg := Some CStart; se_reply := a; se_status := o |}]) st).
  { apply (sh_step toy spread_ext toy_sqrt 20 false isort [demo_id 65] [] (server_init [demo_id 65])); [constructor|exact E|left; exact Ho]. }
  assert (Hk : demo_reply (Some (CRoundOne [] [] [])) st = (st, None, Crash)) by (vm_compute in E; injection E as <- <- <-; vm_compute; reflexivity).
  destruct (F toy spread_ext toy_sqrt 20%nat false isort [demo_id 65] _ st (demo_rand 29) (fun _ => Ok tt) _ _ _ _ toy_laws toy_sqrt_ok ltac:(vm_compute; discriminate) Hist ltac:(intros; left; reflexivity) Hk) as [S _].
  apply S. reflexivity.
Qed.
Print Assumptions C58_server_survives_refuted.

(** Whatever was sent before, no message makes the client abort or misbehave, provided an encrypted sum in it is out of range or coprime to the modulus. *)
Theorem C58_client_survives_partial : forall C X sqrt_p fuel is_safe_prime flag srt elements values p q key_raw cl0 h st rp rq send m st' reply status,
  ec_laws C -> sqrt_ok (ec_p C) sqrt_p -> bit_length (ec_p C) <= 129024 ->
  safe_prime p -> safe_prime q -> is_safe_prime p = true -> is_safe_prime q = true -> p <> q -> small_generator p -> small_generator q -> (length elements <= length values)%nat ->
  client_create C elements values p q key_raw = Ok cl0 -> client_history C X sqrt_p fuel is_safe_prime flag srt cl0 h st -> (forall x, alive (send x)) -> decryptable (p * q) m ->
  client_handle C X sqrt_p fuel is_safe_prime flag srt rp rq send st m = (st', reply, status) -> survives status.
Proof.
  intros C X sq fuel isp flag srt xs vs p q kr cl0 h st rp rq send m st' reply status L Hsq Hb Hp Hq Ip Iq Npq Gp Gq Hl E0 H Hs Hm E.
  destruct (safe_prime_facts p Hp) as (_ & P5 & _), (safe_prime_facts q Hq) as (_ & Q5 & _).
  refine (client_survives C L X sq Hsq Hb fuel flag srt isp xs vs p q Hp Hq Hl st rp rq send m st' reply status _ _ Hs Hm E).
  - exact (private_create_ok isp flag p q 2 Hp Hq Ip Iq Npq ltac:(lia) ltac:(lia) ltac:(lia) Gp Gq).
  - exact (client_ok_history C L X sq fuel flag srt isp xs vs p q kr cl0 h st E0 H).
Qed.
Print Assumptions C58_client_survives_partial.

(** The guard is exact: a client that was sent a round one and is not finished aborts on every other encrypted sum. *)
Theorem C58_client_aborts : forall C X sqrt_p fuel is_safe_prime flag srt elements values p q key_raw cl0 h st rp rq send size sum,
  ec_laws C -> safe_prime p -> safe_prime q -> is_safe_prime p = true -> is_safe_prime q = true -> p <> q -> small_generator p -> small_generator q ->
  client_create C elements values p q key_raw = Ok cl0 -> client_history C X sqrt_p fuel is_safe_prime flag srt cl0 h st -> cl_finished st = false ->
  (exists e es, In e h /\ ce_msg e = Some (SRoundOne es)) -> ~ decryptable (p * q) (Some (SRoundTwo size sum)) ->
  client_handle C X sqrt_p fuel is_safe_prime flag srt rp rq send st (Some (SRoundTwo size sum)) = (st, None, Crash).
Proof.
  intros C X sq fuel isp flag srt xs vs p q kr cl0 h st rp rq send size sum L Hp Hq Ip Iq Npq Gp Gq E0 H Hf Hr Hm.
  destruct (safe_prime_facts p Hp) as (_ & P5 & _), (safe_prime_facts q Hq) as (_ & Q5 & _).
  destruct (client_paillier_history C L X sq fuel flag srt isp xs vs p q kr cl0 h st E0 H (private_create_ok isp flag p q 2 Hp Hq Ip Iq Npq ltac:(lia) ltac:(lia) ltac:(lia) Gp Gq) Hf Hr) as (sk & Es & Ek).
  cbn [decryptable] in Hm. unfold client_handle. rewrite Hf. unfold decrypt_sum. rewrite Es. rewrite (C27_non_units_abort isp flag p q 2 sk (of_bytes sum) Hp Hq ltac:(lia) Ek); [reflexivity| |tauto].
  split; [apply of_bytes_nonneg|]. change (Z.of_nat 2 + 1) with 3. lia.
Qed.
Print Assumptions C58_client_aborts.
Theorem C58_client_survives_refuted : ~ (forall C X sqrt_p fuel is_safe_prime flag srt elements values p q key_raw cl0 h st rp rq send m st' reply status,
  ec_laws C -> sqrt_ok (ec_p C) sqrt_p -> bit_length (ec_p C) <= 129024 ->
  safe_prime p -> safe_prime q -> is_safe_prime p = true -> is_safe_prime q = true -> p <> q -> small_generator p -> small_generator q -> (length elements <= length values)%nat ->
  client_create C elements values p q key_raw = Ok cl0 -> client_history C X sqrt_p fuel is_safe_prime flag srt cl0 h st -> (forall x, alive (send x)) ->
  client_handle C X sqrt_p fuel is_safe_prime flag srt rp rq send st m = (st', reply, status) -> survives status).
Proof.
  intros F. destruct demo_client as [cl0| | | |] eqn:E0; try (vm_compute in E0; discriminate).
  destruct (client_handle toy spread_ext toy_sqrt 20 ex_safe false isort (fun _ => 1) (fun _ => 2) (fun _ => Ok tt) cl0 (Some (SRoundOne []))) as [[cl1 r1] s1] eqn:E1.
  assert (Hs : snd (client_handle toy spread_ext toy_sqrt 20 ex_safe false isort (fun _ => 1) (fun _ => 2) (fun _ => Ok tt) cl0 (Some (SRoundOne []))) = Ok tt) by (vm_compute in E0; injection E0 as <-; vm_compute; reflexivity).
  rewrite E1 in Hs. cbn in Hs.
  assert (Hist : client_history toy spread_ext toy_sqrt 20 ex_safe false isort cl0 ([] ++ [{| ce_rp := (fun _ => 1); ce_rq := (fun _ => 2); ce_sink := (fun _ => Ok tt); ce_msg := Some (SRoundOne []); ce_reply := r1; ce_status := s1 |}]) cl1).
  { apply (ch_step toy spread_ext toy_sqrt 20 ex_safe false isort cl0 [] cl0); [constructor|exact E1|left; exact Hs]. }
  assert (Hk : client_handle toy spread_ext toy_sqrt 20 ex_safe false isort (fun _ => 1) (fun _ => 2) (fun _ => Ok tt) cl1 (Some (SRoundTwo 0 [])) = (cl1, None, Crash)) by (vm_compute in E0; injection E0 as <-; vm_compute in E1; injection E1 as <- <- <-; vm_compute; reflexivity).
  destruct (F toy spread_ext toy_sqrt 20%nat ex_safe false isort [demo_id 65] [5] 23 47 11 cl0 _ cl1 (fun _ => 1) (fun _ => 2) (fun _ => Ok tt) _ _ _ _ toy_laws toy_sqrt_ok ltac:(vm_compute; discriminate)
    safe_23 safe_47 eq_refl eq_refl ltac:(discriminate) ltac:(exists 5; vm_compute; repeat split; discriminate) ltac:(exists 5; vm_compute; repeat split; discriminate) ltac:(cbn; lia) E0 Hist ltac:(intros; left; reflexivity) Hk) as [S _].
  apply S. reflexivity.
Qed.
Print Assumptions C58_client_survives_refuted.
(** The hypotheses of the client's theorem are those met by the run above; sums allowed by its guard are answered, out-of-range ones refused. *)
Example C58_client_ex : decryptable (23 * 47) (Some (SRoundTwo 0 [zb 2])) /\ decryptable (23 * 47) (Some (SRoundTwo 0 (List.repeat (zb 255) 5))) /\ ~ decryptable (23 * 47) (Some (SRoundTwo 0 [zb 46])) /\
  match demo_client with
  | Ok cl0 => 
      let '(cl1, _, _) := client_handle toy spread_ext toy_sqrt 20 ex_safe false isort (fun _ => 1) (fun _ => 2) (fun _ => Ok tt) cl0 (Some (SRoundOne [])) in
      let go b := snd (client_handle toy spread_ext toy_sqrt 20 ex_safe false isort (fun _ => 1) (fun _ => 2) (fun _ => Ok tt) cl1 (Some (SRoundTwo 0 b))) in
      go [zb 2] = Ok tt /\ go (List.repeat (zb 255) 5) = Err InvalidArgument /\ go [zb 46] = Crash
  | _ => False
  end.
Proof. split; [right; reflexivity|]. split; [left; vm_compute; discriminate|]. split; [intros [H|H]; vm_compute in H; [apply H; reflexivity|discriminate]|]. vm_compute. repeat split. Qed.
