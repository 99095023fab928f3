(** The server's last message as a function of its last draw. *)
From Coq Require Import Znumtheory Permutation.
From Verif Require Import Base M_BigNum M_Num M_DJ M_EC M_Group M_Cipher M_Paillier M_Protocol S_Paillier S_Protocol S_HideSum L_BigNum L_Num L_Mod L_NT L_DJ L_Group L_Cipher L_Paillier L_PaillierKey L_Protocol L_Jacobi L_HideSum L_Hide L_HideCom.

Definition bytes_of (z : Z) : bytes := match to_bytes z with Ok b => b | _ => [] end.
Lemma bytes_of_ok z : 0 <= z -> to_bytes z = Ok (bytes_of z) /\ of_bytes (bytes_of z) = z.
Proof. intros H. destruct (to_bytes_of z H) as (b & Eb & Vb). unfold bytes_of. rewrite Eb. split; [reflexivity|exact Vb]. Qed.

(** The product of the associated data. *)
Definition product (es : list elem) : Z := fold_right (fun e acc => of_bytes (ad e) * acc) 1 es.

Lemma add_all_value n s pk : pub_valid n s pk -> forall es c, 0 <= c < n ^ (Z.of_nat s + 1) -> add_all pk c es = Ok ((c * product es) mod n ^ (Z.of_nat s + 1)).
Proof.
  intros U. pose proof (pub_M_pos n s pk U) as MP. induction es as [|e es IH]; intros c Hc; cbn [add_all product fold_right].
  - rewrite Z.mul_1_r, Z.mod_small by exact Hc. reflexivity.
  - unfold pub_add. rewrite (u_mod _ _ _ U), bn_mod_mul_ok by lia. cbn [bind]. rewrite IH by (apply Z.mod_pos_bound; lia). f_equal. fold (product es).
    rewrite Z.mul_mod_idemp_l by lia. f_equal. ring.
Qed.
Lemma pub_encrypt_zero flag n s pk d : pub_valid n s pk -> 0 <= d < n -> (1 <= s)%nat -> pub_encrypt flag pk 0 d = Ok (pub_base pk ^ d mod n ^ (Z.of_nat s + 1)).
Proof.
  intros U Hd Hs. pose proof (pub_M_pos n s pk U) as MP. pose proof (u_gt _ _ _ U) as Hn. assert (HP : 0 < n ^ Z.of_nat s) by (apply Z.pow_pos_nonneg; lia).
  unfold pub_encrypt, is_non_negative. cbn [Z.ltb Z.compare negb]. rewrite (u_pow _ _ _ U), (u_s _ _ _ U), get_powers_at by lia. cbn [bind].
  destruct (Z.leb_spec (n ^ Z.of_nat s) 0); [lia|]. rewrite (u_n _ _ _ U). unfold generate_rand_less_than. destruct (Z.leb_spec n 0); [lia|]. cbn [bind]. rewrite Z.mod_small by exact Hd.
  unfold pub_encrypt_using_generator_and_rand. rewrite (u_n _ _ _ U). destruct (Z.ltb_spec n d); [lia|].
  destruct (pub_expansion n s pk U 0) as (c & Ec & Hc). rewrite Ec. cbn [bind]. rewrite (u_mod _ _ _ U).
  destruct (u_base _ _ _ U) as (g & Gg & Eb). rewrite (fixed_base_exp_ok flag (pub_base pk) (n ^ (Z.of_nat s + 1)) d); [|lia|apply (pub_M_odd n s pk U)| |lia].
  2: { rewrite Eb. apply Z.mod_pos_bound. lia. }
  cbn [bind]. rewrite bn_mod_mul_ok by lia. f_equal. apply eqmod_eq; [lia|]. rewrite (eqmod_mod (n ^ (Z.of_nat s + 1))), Hc. rewrite Z.mod_0_l, Z.pow_0_r, Z.mul_1_l by lia. reflexivity.
Qed.
(** The base of a public key is a power of minus a square. *)
Lemma public_base flag n s raws pk : 1 < n -> Z.odd n = true -> public_create flag n s raws = Ok pk ->
  exists x, relatively_prime_random raws n = Ok x /\ Z.gcd x n = 1 /\ eqmod (n ^ (Z.of_nat s + 1)) (pub_base pk) ((n - (x * x) mod n) ^ (n ^ Z.of_nat s)).
Proof.
  intros Hn Ho E. unfold public_create in E. rewrite get_powers_length in E. replace (S (s + 1) - 1)%nat with (s + 1)%nat in E by lia.
  rewrite get_powers_at in E by lia. cbn [bind] in E. replace (Z.of_nat (s + 1)) with (Z.of_nat s + 1) in E by lia.
  apply bind_ok in E. destruct E as (g & Eg & E). rewrite get_powers_at in E by lia. cbn [bind] in E.
  assert (HM : 0 < n ^ (Z.of_nat s + 1)) by (apply Z.pow_pos_nonneg; lia).
  rewrite bn_mod_exp_ok in E by (try exact HM; apply Z.pow_nonneg; lia). cbn [bind] in E.
  apply bind_ok in E. destruct E as (? & _ & E). apply bind_ok in E. destruct E as (pre & Epre & E). injection E as <-.
  unfold generator_for_safe_modulus in Eg. apply bind_ok in Eg. destruct Eg as (y & Ex & Eg). exists y. split; [exact Ex|]. apply relprime_draw in Ex; [|exact Hn]. split; [apply Ex|].
  unfold bn_mod_sqr in Eg. rewrite bn_mod_ok in Eg by lia. cbn [bind] in Eg. assert (Eg' : g = n - (y * y) mod n) by congruence. subst g. cbn [pub_base]. apply eqmod_mod.
Qed.
Lemma minus_square n x : eqmod n (n - (x * x) mod n) (- (x * x)).
Proof. assert (H : eqmod n ((x * x) mod n) (x * x)) by apply eqmod_mod. destruct H as [w Hw]. exists (1 - w). lia. Qed.

(** ** Taking the run apart *)
Section Reply.
Variable C : ec.
Variable X : externals.
Variable sqrt_p : Z -> Z.
Variable fuel : nat.
Variable isp : Z -> bool.
Variable flag : bool.
Variables p q : Z.
Hypothesis Hp : safe_prime p.
Hypothesis Hq : safe_prime q.
Variable srt : list elem -> list elem.

Definition inter_of (cs re : list elem) : list elem := set_intersection (length (srt cs) + length (srt (srt re))) (srt cs) (srt (srt re)).
Lemma second_reply_inv xs vs key_raw rp rq inputs r1 r2 out : second_reply C X sqrt_p fuel isp flag srt xs vs p q key_raw rp rq inputs r1 r2 = Ok out ->
  exists kc ks es sk rows re pk cs,
    cipher_new C key_raw 0 = Ok kc /\ cipher_new C (sr_key r1) 0 = Ok ks /\
    mapM (fun x => let* e := enc C X sqrt_p fuel ks x in Ok {| el := e; ad := [] |}) inputs = Ok es /\
    private_create isp flag p q 2 = Ok sk /\ client_rows C X sqrt_p fuel flag kc sk rp rq 0 xs vs = Ok rows /\
    mapM (fun e => let* x := cipher_reencrypt C kc (el e) in Ok {| el := x; ad := [] |}) es = Ok re /\
    public_create flag (p * q) 2 (sr_gen r2) = Ok pk /\
    mapM (fun e => let* x := cipher_reencrypt C ks (el e) in Ok {| el := x; ad := ad e |}) rows = Ok cs /\
    forall d, 0 <= d < p * q -> second_reply C X sqrt_p fuel isp flag srt xs vs p q key_raw rp rq inputs r1 (with_zero r2 d) =
      Ok (Z.of_nat (length (inter_of cs re)), bytes_of ((pub_base pk ^ d * product (inter_of cs re)) mod (p * q) ^ 3)).
Proof.
  intros E. unfold second_reply in E. apply bind_ok in E. destruct E as (cl0 & E0 & E). unfold client_create in E0. apply bind_ok in E0. destruct E0 as (kc & Ek & E0).
  assert (Ekc : cipher_new C key_raw 0 = Ok kc) by (destruct (cipher_new C key_raw 0); cbn in Ek; congruence). apply (f_equal (fun o => match o with Ok x => x | _ => cl0 end)) in E0. cbn beta iota in E0. subst cl0.
  destruct (server_handle C X sqrt_p fuel flag srt r1 (fun _ => Ok tt) (server_init inputs) start_protocol) as [[sv1 [round_one|]] [[]| | | |]] eqn:R1; try discriminate.
  pose proof R1 as R1'. apply server_start_inv in R1. destruct R1 as (ks & es & Eks & Ees & -> & ->).
  unfold client_handle at 1 in E. cbn [cl_finished] in E. unfold reencrypt_set in E. cbn [cl_p cl_q cl_cipher cl_elements cl_values cl_finished cl_size cl_sum] in E.
  destruct (private_create isp flag p q 2) as [sk| | | |] eqn:Esk; try discriminate.
  pose proof (safe_prime_facts p Hp) as (_ & Hp5 & Op). pose proof (safe_prime_facts q Hq) as (_ & Hq5 & Oq). assert (Hn : 1 < p * q) by nia. assert (On : Z.odd (p * q) = true) by (rewrite Z.odd_mul, Op, Oq; reflexivity).
  destruct (to_bytes_of (p * q) ltac:(lia)) as (pkb & Epkb & Vpkb). rewrite Epkb in E. cbn [bind] in E.
  destruct (client_rows C X sqrt_p fuel flag kc sk rp rq 0 xs vs) as [rows| | | |] eqn:Erows; try discriminate. cbn [bind] in E.
  match type of E with context [mapM ?f es] => destruct (mapM f es) as [re| | | |] eqn:Ere end; try discriminate. cbn [bind] in E.
  match type of E with context [server_handle C X sqrt_p fuel flag srt r2 ?a ?b ?c] => destruct (server_handle C X sqrt_p fuel flag srt r2 a b c) as [[sv2 round_two] s3] eqn:R2 end.
  unfold server_handle in R2. cbn [sv_finished] in R2.
  unfold compute_intersection in R2. cbn [sv_cipher] in R2. rewrite Vpkb in R2. destruct (public_create flag (p * q) 2 (sr_gen r2)) as [pk| | | |] eqn:Epk;
    [|exfalso; cbn [bind] in R2; injection R2 as <- <- <-; cbn beta iota in E; discriminate..]. cbn [bind] in R2.
  match type of R2 with context [mapM ?f rows] => destruct (mapM f rows) as [cs| | | |] eqn:Ecs end;
    [|exfalso; cbn [bind] in R2; injection R2 as <- <- <-; cbn beta iota in E; discriminate..]. clear R2 E.
  exists kc, ks, es, sk, rows, re, pk, cs. repeat (split; [first [reflexivity|assumption]|]). intros d Hd.
  unfold second_reply, client_create. rewrite Ekc. cbn [value_or_crash bind]. rewrite R1'. cbn beta iota.
  unfold client_handle, reencrypt_set. cbn [cl_p cl_q cl_cipher cl_elements cl_values cl_finished cl_size cl_sum]. rewrite Esk, Epkb. cbn [bind]. rewrite Erows. cbn [bind]. rewrite Ere. cbn [bind].
  unfold server_handle, compute_intersection. cbn [sv_finished sv_cipher with_zero sr_gen sr_zero]. rewrite Vpkb, Epk. cbn [bind]. rewrite Ecs. cbn [bind].
  pose proof (public_inv flag (p * q) 2 _ pk Hn On Epk) as U. pose proof (pub_M_pos _ _ _ U) as MP. change (Z.of_nat 2 + 1) with 3 in MP.
  rewrite (pub_encrypt_zero flag (p * q) 2 pk d U Hd ltac:(lia)). cbn [bind]. rewrite (add_all_value (p * q) 2 pk U); [|apply Z.mod_pos_bound; change (Z.of_nat 2 + 1) with 3; lia]. cbn [bind].
  change (Z.of_nat 2 + 1) with 3. rewrite Z.mul_mod_idemp_l by lia. fold (inter_of cs re).
  destruct (bytes_of_ok ((pub_base pk ^ d * product (inter_of cs re)) mod (p * q) ^ 3)) as [Eb _]; [apply Z.mod_pos_bound; lia|]. rewrite Eb. cbn [bind]. reflexivity.
Qed.

(** ** Two runs with the same size, sum and Jacobi symbol *)
Hypothesis Hp5 : 5 < p.
Hypothesis Hq5 : 5 < q.
Hypothesis Hpq : p <= 2 * q.
Hypothesis Hqp : q <= 2 * p.

Lemma odd_half r : prime r -> 2 < r -> Z.odd r = true.
Proof.
  intros Pr Hr. destruct (Z.odd r) eqn:O; [reflexivity|]. exfalso. assert (D : (2 | r)) by (apply Z.mod_divide; [lia|]; rewrite Zmod_odd, O; reflexivity).
  apply prime_div_prime in D; [lia|exact prime_2|exact Pr].
Qed.
Lemma gcd_group : p <> q -> Z.gcd (p * q) ((p - 1) * (q - 1)) = 1.
Proof.
  intros Hne. destruct Hp as [Pp (a & Pa & Ea)]. destruct Hq as [Pq (b & Pb & Eb)].
  assert (W : forall u v c, prime u -> prime v -> prime c -> v = 2 * c + 1 -> 2 < u -> v <= 2 * u -> Z.gcd u (v - 1) = 1).
  { intros u v c Pu Pv Pc Ev Hu Hv. rewrite Z.gcd_comm. apply prime_gcd; [exact Pu|]. intros D. replace (v - 1) with (2 * c) in D by lia. apply prime_mult in D; [|exact Pu].
    destruct D as [D|D]; [apply Z.divide_pos_le in D; lia|]. apply prime_div_prime in D; [lia|assumption|assumption]. }
  assert (S : forall u, prime u -> Z.gcd u (u - 1) = 1).
  { intros u Pu. rewrite Z.gcd_comm. apply prime_gcd; [exact Pu|]. intros D. pose proof (prime_ge_2 _ Pu). apply Z.divide_pos_le in D; lia. }
  apply gcd_mul_l; apply gcd_mul_r.
  - apply S, Pp.
  - apply (W p q b); (assumption || lia).
  - apply (W q p a); (assumption || lia).
  - apply S, Pq.
Qed.

Lemma two_products gen x pk : relatively_prime_random gen (p * q) = Ok x -> Z.gcd (x * x - 1) (p * q) = 1 -> public_create flag (p * q) 2 gen = Ok pk ->
  forall sk d d' A A' sum, 0 <= d -> 0 <= d' -> private_create isp flag p q 2 = Ok sk ->
  let Y := (pub_base pk ^ d * A) mod (p * q) ^ 3 in let Y' := (pub_base pk ^ d' * A') mod (p * q) ^ 3 in
  priv_decrypt sk Y = Ok sum -> priv_decrypt sk Y' = Ok sum -> jacobi_one p q Y = jacobi_one p q Y' ->
  forall (size : Z) (test : Z * bytes -> bool), Z.abs (S_Hide.count [p * q] (fun ds => test (size, bytes_of ((pub_base pk ^ nth 0 ds 0 * A) mod (p * q) ^ 3))) -
                           S_Hide.count [p * q] (fun ds => test (size, bytes_of ((pub_base pk ^ nth 0 ds 0 * A') mod (p * q) ^ 3)))) <= p + q - 1.
Proof.
  intros Ex Gx1 Epk sk d d' A A' sum Hd0 Hd0' Esk Y Y' D D' J size test.
  pose proof (safe_prime_facts p Hp) as (Pp & _ & Op). pose proof (safe_prime_facts q Hq) as (Pq & _ & Oq). assert (Hn : 1 < p * q) by nia. assert (On : Z.odd (p * q) = true) by (rewrite Z.odd_mul, Op, Oq; reflexivity).
  pose proof (private_inv isp flag p q 2 sk Hp Hq ltac:(lia) Esk) as K. pose proof (priv_coprime p q 2 sk K) as Gpq.
  assert (Hne : p <> q) by (intros ->; rewrite Z.gcd_diag, Z.abs_eq in Gpq; lia). pose proof (gcd_group Hne) as Gn.
  set (base := pub_base pk) in *.
  pose proof (public_inv flag (p * q) 2 _ pk Hn On Epk) as U. pose proof (pub_M_pos _ _ _ U) as MP. change (Z.of_nat 2 + 1) with 3 in MP.
  destruct (public_base flag (p * q) 2 _ pk Hn On Epk) as (x' & Ex' & Gx & Hb). assert (x' = x) as -> by congruence. clear Ex'. fold base in Hb.
  set (M := (p * q) ^ 3) in *.
  destruct (decrypt_plain p q 2 sk Y sum K D) as (_ & Bs & [P1 P2]). destruct (decrypt_plain p q 2 sk Y' sum K D') as (_ & _ & [P1' P2']).
  assert (GY : Z.gcd Y (p * q) = 1) by (destruct (Z.eq_dec (Z.gcd Y (p * q)) 1) as [?|N]; [assumption|]; rewrite (decrypt_nonunit p q 2 sk K Y) in D; [discriminate|unfold in_range; change (Z.of_nat 2 + 1) with 3; apply Z.mod_pos_bound; lia|exact N]).
  assert (GY' : Z.gcd Y' (p * q) = 1) by (destruct (Z.eq_dec (Z.gcd Y' (p * q)) 1) as [?|N]; [assumption|]; rewrite (decrypt_nonunit p q 2 sk K Y') in D'; [discriminate|unfold in_range; change (Z.of_nat 2 + 1) with 3; apply Z.mod_pos_bound; lia|exact N]).
  destruct Hp as [_ (a & Pa & Ea)]. destruct Hq as [_ (b & Pb & Eb)].
  assert (Oa : Z.odd a = true) by (apply odd_half; [exact Pa|clear - Ea Hp5; lia]).
  assert (Ob : Z.odd b = true) by (apply odd_half; [exact Pb|clear - Eb Hq5; lia]).
  assert (Hab : a <> b) by (clear - Ea Eb Hne; lia). pose proof (prime_ge_2 _ Pa) as Ha2. pose proof (prime_ge_2 _ Pb) as Hb2. assert (Ha1 : 1 < a) by (clear - Ha2; lia). assert (Hb1 : 1 < b) by (clear - Hb2; lia).
  assert (M0 : 0 < M) by (clear - MP; lia). assert (Hp1 : 0 <= p - 1) by (clear - Hp5; lia). assert (Hq1 : 0 <= q - 1) by (clear - Hq5; lia). assert (S3 : 0 <= Z.of_nat 2 + 1) by (clear; lia).
  (* the quotient of the two replies *)
  assert (Inv : exists i, eqmod M (Y' * i) 1).
  { assert (G3 : Z.gcd Y' M = 1) by (apply gcd_pow_r; [clear; lia|exact GY']). apply Zgcd_1_rel_prime, rel_prime_bezout in G3. destruct G3 as [w z Hwz]. exists w. exists (- z). clear - Hwz; lia. }
  destruct Inv as (i & Hi). set (u := Y * i).
  assert (Hu : eqmod M (u * Y') Y) by (unfold u; replace (Y * i * Y') with (Y * (Y' * i)) by ring; rewrite Hi, Z.mul_1_r; reflexivity).
  pose proof (coprime_ndiv p q p Y Pp (Z.divide_factor_l _ _) GY) as NYp. pose proof (coprime_ndiv p q q Y Pq (Z.divide_factor_r _ _) GY) as NYq.
  pose proof (coprime_ndiv p q p Y' Pp (Z.divide_factor_l _ _) GY') as NYp'. pose proof (coprime_ndiv p q q Y' Pq (Z.divide_factor_r _ _) GY') as NYq'.
  assert (DpM : (p ^ (Z.of_nat 2 + 1) | M)) by (unfold M; rewrite Z.pow_mul_l; apply Z.divide_factor_l). assert (DqM : (q ^ (Z.of_nat 2 + 1) | M)) by (unfold M; rewrite Z.pow_mul_l; apply Z.divide_factor_r).
  assert (DpP : (p | p ^ (Z.of_nat 2 + 1))) by (exists (p ^ 2); change (Z.of_nat 2 + 1) with 3; ring). assert (DqP : (q | q ^ (Z.of_nat 2 + 1))) by (exists (q ^ 2); change (Z.of_nat 2 + 1) with 3; ring).
  assert (Hup3 : eqmod (p ^ (Z.of_nat 2 + 1)) (u * Y') Y) by (apply (eqmod_divide _ M); assumption). assert (Huq3 : eqmod (q ^ (Z.of_nat 2 + 1)) (u * Y') Y) by (apply (eqmod_divide _ M); assumption).
  assert (Hup : eqmod p (u * Y') Y) by (apply (eqmod_divide _ (p ^ (Z.of_nat 2 + 1))); assumption). assert (Huq : eqmod q (u * Y') Y) by (apply (eqmod_divide _ (q ^ (Z.of_nat 2 + 1))); assumption).
  assert (Nup : ~ (p | u)) by (intros Dv; apply NYp; apply eqmod_0; rewrite <- Hup; apply eqmod_0, Z.divide_mul_l, Dv).
  assert (Nuq : ~ (q | u)) by (intros Dv; apply NYq; apply eqmod_0; rewrite <- Huq; apply eqmod_0, Z.divide_mul_l, Dv).
  assert (Jp : residue p Y = eqb (residue p u) (residue p Y')) by (rewrite <- (residue_mul p a Pp Ea Ha1 u Y' Nup NYp'); symmetry; apply (residue_eqmod p a); assumption).
  assert (Jq : residue q Y = eqb (residue q u) (residue q Y')) by (rewrite <- (residue_mul q b Pq Eb Hb1 u Y' Nuq NYq'); symmetry; apply (residue_eqmod q b); assumption).
  assert (Ju : residue p u = residue q u) by (unfold jacobi_one in J; rewrite Jp, Jq in J; destruct (residue p u), (residue q u), (residue p Y'), (residue q Y'); cbn in J; congruence).
  assert (Tp : eqmod (p ^ (Z.of_nat 2 + 1)) (u ^ (p - 1)) 1).
  { apply (eqmod_cancel (p ^ (Z.of_nat 2 + 1)) (Y' ^ (p - 1))); [apply gcd_pow_l; [assumption|]; apply gcd_pow_r; [assumption|]; apply prime_gcd; assumption|].
    rewrite <- Z.pow_mul_l, (Z.mul_comm Y' u), Hup3, P1, P1', Z.mul_1_r. reflexivity. }
  assert (Tq : eqmod (q ^ (Z.of_nat 2 + 1)) (u ^ (q - 1)) 1).
  { apply (eqmod_cancel (q ^ (Z.of_nat 2 + 1)) (Y' ^ (q - 1))); [apply gcd_pow_l; [assumption|]; apply gcd_pow_r; [assumption|]; apply prime_gcd; assumption|].
    rewrite <- Z.pow_mul_l, (Z.mul_comm Y' u), Huq3, P2, P2', Z.mul_1_r. reflexivity. }
  assert (Hb' : eqmod ((p * q) ^ (Z.of_nat 2 + 1)) base ((- (x * x)) ^ ((p * q) ^ Z.of_nat 2))).
  { rewrite Hb. apply lift; [clear - Hn; lia|apply minus_square]. }
  destruct (zero_encryptions p q a b Pp Pq Ea Eb Pa Pb Oa Ob Hab x Gx Gx1 2 Gn base Hb' u Nup Nuq Ju Tp Tq) as (k & Hk & Ek). 
  pose proof (base_period p q a b Pp Pq Ea Eb Pa Pb Hab x Gx 2 base Hb') as Per. change (Z.of_nat 2 + 1) with 3 in Ek, Per. fold M in Ek, Per. set (E := 2 * (a * b)) in *. assert (En : p * q = 2 * E + (p + q - 1)) by (unfold E; rewrite Ea, Eb; ring).
  assert (HE : 0 < E) by (unfold E; clear - Ha1 Hb1; nia). clearbody E.
  set (w := k + d' + (E - 1) * d).
  assert (Hw : 0 <= w) by (unfold w; clear - HE Hk Hd0 Hd0'; nia).
  assert (Sh : eqmod M A (base ^ w * A')).
  { assert (E1 : eqmod M (base ^ d * A) (base ^ k * (base ^ d' * A'))).
    { transitivity Y; [symmetry; apply eqmod_mod|]. rewrite <- Hu, Ek. apply eqmod_mul; [reflexivity|apply eqmod_mod]. }
    transitivity (base ^ ((E - 1) * d) * (base ^ d * A)).
    - rewrite Z.mul_assoc, <- Z.pow_add_r by (clear - HE Hd0; nia). replace ((E - 1) * d + d) with (E * d) by ring. rewrite Z.pow_mul_r by (clear - HE Hd0; lia). rewrite Per, Z.pow_1_l, Z.mul_1_l by assumption. reflexivity.
    - rewrite E1. unfold w. rewrite !Z.pow_add_r by (clear - HE Hd0 Hd0' Hk; nia). exists 0. ring. }
  set (G := fun y : Z => (size, bytes_of ((base ^ y * A') mod M))).
  assert (GP : forall y, 0 <= y -> G (y + E) = G y).
  { intros y Hy. unfold G. do 2 f_equal. apply eqmod_eq; [exact M0|]. rewrite Z.pow_add_r by (clear - Hy HE; lia). rewrite Per, Z.mul_1_r. reflexivity. }
    pose proof (two_draws_close G E 2 (p + q - 1) w 0 test ltac:(clear; lia) HE ltac:(clear - Hp5 Hq5; lia) Hw ltac:(clear; lia) GP) as T. rewrite <- En in T.
  match goal with |- Z.abs (?l - ?r) <= _ => assert (L1 : l = S_Hide.count [p * q] (fun ds => test (G (nth 0 ds 0 + w)))); [|assert (L2 : r = S_Hide.count [p * q] (fun ds => test (G (nth 0 ds 0 + 0))))] end.
  - apply count_ext. intros ds Hl Hds. destruct ds as [|y [|? ?]]; try discriminate Hl. assert (By : 0 <= y < p * q) by (inversion Hds; assumption). cbn [nth]. f_equal. unfold G. do 2 f_equal. apply eqmod_eq; [exact M0|].
    rewrite Z.pow_add_r by (clear - By Hw; lia). rewrite Sh. exists 0. ring.
  - apply count_ext. intros ds Hl Hds. destruct ds as [|y [|? ?]]; try discriminate Hl. cbn [nth]. f_equal. unfold G. rewrite Z.add_0_r. reflexivity.
  - rewrite L1, L2. exact T.
Qed.

Lemma two_replies xs vs key_raw rp rq inputs inputs' r1 r1' r2 x : relatively_prime_random (sr_gen r2) (p * q) = Ok x -> Z.gcd (x * x - 1) (p * q) = 1 ->
  forall sk d d' size sb sb' sum, 0 <= d < p * q -> 0 <= d' < p * q -> private_create isp flag p q 2 = Ok sk ->
  second_reply C X sqrt_p fuel isp flag srt xs vs p q key_raw rp rq inputs r1 (with_zero r2 d) = Ok (size, sb) ->
  second_reply C X sqrt_p fuel isp flag srt xs vs p q key_raw rp rq inputs' r1' (with_zero r2 d') = Ok (size, sb') ->
  priv_decrypt sk (of_bytes sb) = Ok sum -> priv_decrypt sk (of_bytes sb') = Ok sum -> jacobi_one p q (of_bytes sb) = jacobi_one p q (of_bytes sb') ->
  forall test, Z.abs (S_Hide.count [p * q] (fun ds => test (second_reply C X sqrt_p fuel isp flag srt xs vs p q key_raw rp rq inputs r1 (with_zero r2 (nth 0 ds 0)))) -
                      S_Hide.count [p * q] (fun ds => test (second_reply C X sqrt_p fuel isp flag srt xs vs p q key_raw rp rq inputs' r1' (with_zero r2 (nth 0 ds 0))))) <= p + q - 1.
Proof.
  intros Ex Gx1 sk d d' size sb sb' sum Hd Hd' Esk R R' D D' J test.
  pose proof (safe_prime_facts p Hp) as (Pp & _ & Op). pose proof (safe_prime_facts q Hq) as (Pq & _ & Oq). assert (Hn : 1 < p * q) by nia. assert (M0 : 0 < (p * q) ^ 3) by (apply Z.pow_pos_nonneg; lia).
  destruct (second_reply_inv _ _ _ _ _ _ _ _ _ R) as (kc & ks & es & sk1 & rows & re & pk & cs & _ & _ & _ & _ & _ & _ & Epk & _ & F).
  destruct (second_reply_inv _ _ _ _ _ _ _ _ _ R') as (kc' & ks' & es' & sk1' & rows' & re' & pk' & cs' & _ & _ & _ & _ & _ & _ & Epk' & _ & F').
  cbn [with_zero sr_gen] in Epk, Epk'. assert (pk' = pk) as -> by congruence. clear Epk'.
  assert (WZ : forall r a b, with_zero (with_zero r a) b = with_zero r b) by reflexivity. setoid_rewrite WZ in F. setoid_rewrite WZ in F'.
  set (A := product (inter_of cs re)) in *. set (A' := product (inter_of cs' re')) in *. rewrite (F d Hd) in R. rewrite (F' d' Hd') in R'.
  assert (Esz : Z.of_nat (length (inter_of cs re)) = size) by congruence. assert (Esz' : Z.of_nat (length (inter_of cs' re')) = size) by congruence. rewrite Esz in F. rewrite Esz' in F'.
  set (Y := (pub_base pk ^ d * A) mod (p * q) ^ 3) in *. set (Y' := (pub_base pk ^ d' * A') mod (p * q) ^ 3) in *.
  assert (sb = bytes_of Y) as -> by congruence. assert (sb' = bytes_of Y') as -> by congruence. clear R R'.
  destruct (bytes_of_ok Y) as [_ VY]; [apply Z.mod_pos_bound; lia|]. destruct (bytes_of_ok Y') as [_ VY']; [apply Z.mod_pos_bound; lia|]. rewrite VY in D, J. rewrite VY' in D', J.
  pose proof (two_products (sr_gen r2) x pk Ex Gx1 Epk sk d d' A A' sum ltac:(lia) ltac:(lia) Esk D D' J size (fun m => test (Ok m))) as T. cbv beta in T.
  match goal with |- Z.abs (?l - ?r) <= _ => match type of T with Z.abs (?l' - ?r') <= _ => assert (L1 : l = l'); [|assert (L2 : r = r'); [|rewrite L1, L2; exact T]] end end.
  - apply count_ext. intros ds Hl Hds. destruct ds as [|y [|? ?]]; try discriminate Hl. assert (By : 0 <= y < p * q) by (inversion Hds; assumption). cbn [nth]. rewrite (F y By). reflexivity.
  - apply count_ext. intros ds Hl Hds. destruct ds as [|y [|? ?]]; try discriminate Hl. assert (By : 0 <= y < p * q) by (inversion Hds; assumption). cbn [nth]. rewrite (F' y By). reflexivity.
Qed.
End Reply.
