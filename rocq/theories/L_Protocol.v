(** Lemmas about the intersection-sum protocol. *)
From Coq Require Import Permutation Sorted Znumtheory.
From Verif Require Import Base M_BigNum L_BigNum M_Num L_Mod L_Num L_DJ M_EC L_EC M_Group S_Group L_Group P_Group M_Cipher S_Cipher L_Cipher
  M_Paillier S_Paillier L_Paillier L_PaillierKey P_Paillier M_Csv M_Protocol S_Protocol.

(** ** Lists *)

Lemma count_app x a b : count x (a ++ b) = (count x a + count x b)%nat.
Proof. apply count_occ_app. Qed.
Lemma count_perm x a b : Permutation a b -> count x a = count x b.
Proof. intros H. apply Permutation_count_occ, H. Qed.
Lemma count_0 x l : ~ In x l -> count x l = 0%nat.
Proof. apply count_occ_not_In. Qed.
Lemma count_cons x y l : count x (y :: l) = ((if bytes_dec y x then 1 else 0) + count x l)%nat.
Proof. unfold count. cbn [count_occ]. destruct (bytes_dec y x); reflexivity. Qed.
Lemma zsum_app a b : zsum (a ++ b) = zsum a + zsum b.
Proof. induction a as [|x a IH]; cbn [zsum app]; lia. Qed.
Lemma zsum_perm a b : Permutation a b -> zsum a = zsum b.
Proof. induction 1; cbn [zsum]; lia. Qed.

Definition le_el (a b : elem) : Prop := bytes_ltb (el b) (el a) = false.
Lemma sorted_count_0 x l : StronglySorted le_el (x :: l) -> forall s, bytes_ltb s (el x) = true -> count s (map el (x :: l)) = 0%nat.
Proof.
  intros H s Hs. apply count_0. intros Hin. apply in_map_iff in Hin. destruct Hin as (y & <- & [<-|Hy]); [rewrite bytes_ltb_irrefl in Hs; discriminate|].
  inversion H as [|? ? _ F]; subst. rewrite Forall_forall in F. specialize (F y Hy). unfold le_el in F. congruence.
Qed.

(** std::set_intersection on sorted ranges: a part of the first range, with the smaller number of copies of everything. *)
Lemma set_intersection_spec : forall n a b, (length a + length b <= n)%nat -> StronglySorted le_el a -> StronglySorted le_el b ->
  (exists rest, Permutation a (set_intersection n a b ++ rest)) /\
  forall s, count s (map el (set_intersection n a b)) = Nat.min (count s (map el a)) (count s (map el b)).
Proof.
  induction n as [|n IH]; intros a b Hn Sa Sb.
  - destruct a; [|cbn [length] in Hn; lia]. cbn. split; [exists []; constructor|reflexivity].
  - cbn [set_intersection]. destruct a as [|x a]; [split; [exists []; constructor|reflexivity]|]. destruct b as [|y b].
    { split; [exists (x :: a); reflexivity|]. intros s. cbn [map]. unfold count at 1 3. cbn [count_occ]. lia. }
    cbn [length] in Hn. pose proof (StronglySorted_inv Sa) as [Sa' _]. pose proof (StronglySorted_inv Sb) as [Sb' _].
    destruct (bytes_ltb (el x) (el y)) eqn:E1; [|destruct (bytes_ltb (el y) (el x)) eqn:E2].
    + destruct (IH a (y :: b) ltac:(cbn [length]; lia) Sa' Sb) as ((rest & Hp) & Hc). split.
      * exists (x :: rest). rewrite <- Permutation_middle. constructor. exact Hp.
      * intros s. rewrite Hc. cbn [map]. rewrite (count_cons s (el x)). destruct (bytes_dec (el x) s) as [<-|]; [|reflexivity].
        change (el y :: map el b) with (map el (y :: b)). rewrite (sorted_count_0 y b Sb (el x) E1). lia.
    + destruct (IH (x :: a) b ltac:(cbn [length]; lia) Sa Sb') as ((rest & Hp) & Hc). split; [exists rest; exact Hp|].
      intros s. rewrite Hc. cbn [map]. rewrite (count_cons s (el y)). destruct (bytes_dec (el y) s) as [<-|]; [|reflexivity].
      change (el x :: map el a) with (map el (x :: a)). rewrite (sorted_count_0 x a Sa (el y) E2). lia.
    + pose proof (bytes_ltb_total _ _ E1 E2) as Exy. destruct (IH a b ltac:(lia) Sa' Sb') as ((rest & Hp) & Hc). split.
      * exists rest. cbn [app]. constructor. exact Hp.
      * intros s. cbn [map]. rewrite !count_cons, Hc, Exy. destruct (bytes_dec (el y) s); lia.
Qed.

Lemma mapM_Forall2 {A B} (f : A -> outcome B) xs ys : mapM f xs = Ok ys -> Forall2 (fun x y => f x = Ok y) xs ys.
Proof.
  revert ys. induction xs as [|x xs IH]; cbn [mapM]; intros ys E; [injection E as <-; constructor|].
  apply bind_ok in E. destruct E as (y & Ey & E). apply bind_ok in E. destruct E as (r & Er & E). injection E as <-. constructor; [exact Ey|apply IH, Er].
Qed.
Lemma Forall2_trans {A B D} (P : A -> B -> Prop) (Q : B -> D -> Prop) (R : A -> D -> Prop) xs ys zs : (forall x y z, P x y -> Q y z -> R x z) ->
  Forall2 P xs ys -> Forall2 Q ys zs -> Forall2 R xs zs.
Proof. intros HR H. revert zs. induction H; intros zs HQ; inversion HQ; subst; constructor; eauto. Qed.
Lemma Forall2_len {A B} (P : A -> B -> Prop) xs ys : Forall2 P xs ys -> length xs = length ys.
Proof. induction 1; cbn [length]; congruence. Qed.
Lemma Forall2_flip' {A B} (P : A -> B -> Prop) xs ys : Forall2 P xs ys -> Forall2 (fun y x => P x y) ys xs.
Proof. induction 1; constructor; assumption. Qed.
Lemma Forall2_perm_r {A B} (P : A -> B -> Prop) xs ys ys' : Forall2 P xs ys -> Permutation ys ys' -> exists xs', Permutation xs xs' /\ Forall2 P xs' ys'.
Proof.
  intros H Hp. destruct (Permutation_Forall2 Hp (Forall2_flip' _ _ _ H)) as (xs' & Hp' & H'). exists xs'. split; [exact Hp'|apply Forall2_flip' in H'; exact H'].
Qed.

Section Crypto.
Variable C : ec.
Hypothesis L : ec_laws C.
Variable X : externals.
Variable sqrt_p : Z -> Z.
Variable fuel : nat.
Notation n := (ec_order C).

Definition hashes (x : bytes) : outcome (pt C) := hash_internal C X sqrt_p None fuel 0 x.

Lemma cipher_new_good raw c : cipher_new C raw 0 = Ok c -> good C c /\ ci_hash c = 0.
Proof.
  intros E. split; [apply (created_valid C L X); left; eauto|]. unfold cipher_new in E. cbn in E. unfold cipher_make in E. apply bind_ok in E. destruct E as (i & _ & E). injection E as <-. reflexivity.
Qed.
Lemma cipher_new_ok raw : exists c, cipher_new C raw 0 = Ok c.
Proof. unfold cipher_new. cbn [validate_hash_type negb Z.eqb orb]. destruct (cipher_make_ok C L (generate_private_key C raw) 0) as (c & E & _). exists c. exact E. Qed.

(** [b] is the double encryption of [x] with the product [k] of the keys. *)
Definition dbl (k : Z) (x b : bytes) : Prop := exists P, hashes x = Ok P /\ P <> pinf C /\ b = ec_enc C (pmul C k P).

Lemma dbl_enc c1 c2 x e b : good C c1 -> good C c2 -> ci_hash c1 = 0 -> enc C X sqrt_p fuel c1 x = Ok e -> cipher_reencrypt C c2 e = Ok b -> dbl (ci_key c1 * ci_key c2) x b.
Proof.
  intros G1 G2 H1 E1 E2. destruct (encrypt_inv C L X sqrt_p None fuel c1 x e G1 E1) as (P & Hh & NP & -> & NQ & _). rewrite H1 in Hh. exists P. split; [exact Hh|]. split; [exact NP|].
  change (cipher_reencrypt C c2) with (apply_layer C (Add c2)) in E2. rewrite (layer_ok C L (Add c2) _ _ G2 (point_of_bytes_enc C L _ NQ)) in E2. cbn [factor] in E2.
  rewrite <- (pmul_mul C L) in E2. rewrite Z.mul_comm. congruence.
Qed.
Lemma dbl_fun k x a b : dbl k x a -> dbl k x b -> a = b.
Proof. intros (P & E1 & _ & ->) (Q & E2 & _ & ->). congruence. Qed.
Lemma dbl_hash k x y b : k mod n <> 0 -> dbl k x b -> dbl k y b -> hashes x = hashes y.
Proof.
  intros Hk (P & E1 & NP & ->) (Q & E2 & NQ & E). rewrite E1, E2. f_equal. apply (enc_inj C L) in E; try (apply (pmul_not_inf C L); assumption).
  apply (pmul_pt_inj C L k); assumption.
Qed.

(** Double encryptions decide equality of identifiers on which hashing is injective. *)
Lemma dbl_count k (dom : list bytes) x b : k mod n <> 0 -> (forall a c, In a dom -> In c dom -> hashes a = hashes c -> a = c) -> In x dom -> dbl k x b ->
  forall xs es, incl xs dom -> Forall2 (dbl k) xs es -> count x xs = count b es.
Proof.
  intros Hk Hinj Hx Hd xs es Hi H. induction H as [|y e xs es Hy H IH]; [reflexivity|].
  rewrite !count_cons, IH by (intros z Hz; apply Hi; right; exact Hz). assert (In y dom) by (apply Hi; left; reflexivity).
  destruct (bytes_dec y x) as [->|N1], (bytes_dec e b) as [->|N2]; try reflexivity; exfalso.
  - apply N2. exact (dbl_fun _ _ _ _ Hy Hd).
  - apply N1. apply Hinj; try assumption. exact (dbl_hash k _ _ b Hk Hy Hd).
Qed.

Lemma key_product c1 c2 : good C c1 -> good C c2 -> (ci_key c1 * ci_key c2) mod n <> 0.
Proof.
  intros G1 G2 E. pose proof (factor_unit C L (Add c1) G1) as U1. pose proof (factor_unit C L (Add c2) G2) as U2. cbn [factor] in U1, U2.
  pose proof (n_gt1 C L). apply Z.mod_divide in E; [|lia]. apply prime_mult in E; [|apply (n_prime C L)]. destruct E as [E|E]; apply Z.mod_divide in E; lia.
Qed.

Lemma enc_not_err c x e : good C c -> ci_hash c = 0 -> (forall e, hashes x <> Err e) -> (forall P, hashes x = Ok P -> P <> pinf C) -> enc C X sqrt_p fuel c x <> Err e.
Proof.
  intros G H0 N I. unfold enc. rewrite (encrypt_factor C L) by exact G. unfold cipher_hash. rewrite H0. fold (hashes x). destruct (hashes x) as [P|e'| | |] eqn:E; cbn [bind]; try discriminate.
  - rewrite (point_to_bytes_ok C L P) by (apply I; reflexivity). discriminate.
  - exfalso. exact (N e' eq_refl).
Qed.
Lemma enc_ok c x P : good C c -> ci_hash c = 0 -> hashes x = Ok P -> P <> pinf C -> enc C X sqrt_p fuel c x = Ok (ec_enc C (pmul C (ci_key c) P)).
Proof.
  intros G H0 E NP. unfold enc. rewrite (encrypt_factor C L) by exact G. unfold cipher_hash. rewrite H0. fold (hashes x). rewrite E. cbn [bind].
  rewrite (point_to_bytes_ok C L P) by exact NP. reflexivity.
Qed.
Lemma reenc_ok c k P : good C c -> k mod n <> 0 -> P <> pinf C -> exists b, cipher_reencrypt C c (ec_enc C (pmul C k P)) = Ok b.
Proof.
  intros G Hk NP. change (cipher_reencrypt C c) with (apply_layer C (Add c)). eexists. apply (layer_ok C L (Add c) _ _ G (point_of_bytes_enc C L _ (pmul_not_inf C L _ P NP Hk))).
Qed.

(** ** Paillier side *)
Variable isp : Z -> bool.
Variable flag : bool.
Variables p q : Z.
Hypothesis Hp : safe_prime p.
Hypothesis Hq : safe_prime q.
Notation M := ((p * q) ^ 2).

Section Keys.
Variable sk : private_paillier.
Hypothesis Esk : private_create isp flag p q 2 = Ok sk.
Variable pk : public_paillier.
Variable raws : list Z.
Hypothesis Epk : public_create flag (p * q) 2 raws = Ok pk.

(** The associated data decrypts to [v]. *)
Definition holds (v : Z) (e : elem) : Prop := priv_decrypt sk (of_bytes (ad e)) = Ok v.

Lemma add_dec c1 c2 m1 m2 : priv_decrypt sk c1 = Ok m1 -> priv_decrypt sk c2 = Ok m2 -> exists c, pub_add pk c1 c2 = Ok c /\ priv_decrypt sk c = Ok ((m1 + m2) mod M).
Proof.
  intros D1 D2. destruct (C25_homomorphism isp flag p q 2 sk raws pk Hp Hq ltac:(lia) Esk Epk (fun i => match i with O => c1 | _ => c2 end) (fun i => match i with O => m1 | _ => m2 end) (PAdd (PLeaf 0) (PLeaf 1))) as (c & Ec & Dc).
  - intros [|i]; assumption.
  - cbn; tauto.
  - exists c. split; [|exact Dc]. cbn [cipher_eval bind] in Ec. exact Ec.
Qed.
Lemma add_all_dec es : forall vs c m, Forall2 holds vs es -> priv_decrypt sk c = Ok m -> 0 <= m < M ->
  exists c', add_all pk c es = Ok c' /\ priv_decrypt sk c' = Ok ((m + zsum vs) mod M).
Proof.
  pose proof (safe_prime_facts p Hp) as (_ & Hp5 & _). pose proof (safe_prime_facts q Hq) as (_ & Hq5 & _). assert (MP : 0 < M) by (apply Z.pow_pos_nonneg; nia).
  induction es as [|e es IH]; intros vs c m H D B; inversion H as [|v ? vs' ? Hv Hvs]; subst; cbn [add_all zsum].
  - exists c. split; [reflexivity|]. rewrite Z.add_0_r, Z.mod_small by exact B. exact D.
  - destruct (add_dec c (of_bytes (ad e)) m v D Hv) as (c1 & E1 & D1). rewrite E1. cbn [bind].
    destruct (IH vs' c1 ((m + v) mod M) Hvs D1 (Z.mod_pos_bound _ _ MP)) as (c' & E' & D'). exists c'. split; [exact E'|]. rewrite D'. rewrite Z.add_mod_idemp_l by lia. do 2 f_equal. lia.
Qed.
End Keys.

(** What the client's rows look like. *)
Definition row_ok (c : cipher) (sk : private_paillier) (xv : bytes * Z) (e : elem) : Prop := enc C X sqrt_p fuel c (fst xv) = Ok (el e) /\ holds sk (snd xv) e.
Lemma client_rows_inv c sk rp rq : private_create isp flag p q 2 = Ok sk -> forall xs vs i rows, client_rows C X sqrt_p fuel flag c sk rp rq i xs vs = Ok rows ->
  Forall2 (row_ok c sk) (combine xs vs) rows /\ map fst (combine xs vs) = xs.
Proof.
  intros Esk. pose proof (private_inv isp flag p q 2 sk Hp Hq ltac:(lia) Esk) as K. induction xs as [|x xs IH]; cbn [client_rows]; intros vs i rows E; [injection E as <-; split; [constructor|reflexivity]|].
  apply bind_ok in E. destruct E as (b & Eb & E). destruct vs as [|v vs]; [discriminate|]. apply bind_ok in E. destruct E as (ct & Ect & E).
  apply bind_ok in E. destruct E as (cb & Ecb & E). apply bind_ok in E. destruct E as (rest & Er & E). injection E as <-. destruct (IH _ _ _ Er) as [H1 H2]. cbn [combine map fst]. rewrite H2. split; [|reflexivity].
  constructor; [|exact H1]. split; [exact Eb|]. unfold holds. cbn [ad snd].
  assert (Bv : 0 <= v < (p * q) ^ Z.of_nat 2).
  { destruct (Z_lt_dec v 0) as [N|N]; [rewrite (priv_encrypt_bad flag p q 2 sk K v _ _ ltac:(lia)) in Ect; discriminate|].
    destruct (Z_lt_dec v ((p * q) ^ Z.of_nat 2)); [lia|]. rewrite (priv_encrypt_bad flag p q 2 sk K v _ _ ltac:(lia)) in Ect; discriminate. }
  destruct (C23_private_roundtrip isp flag p q 2 sk v (rp i) (rq i) Hp Hq ltac:(lia) Esk Bv) as (ct' & E1 & D). assert (ct' = ct) as -> by congruence.
  destruct (Z_lt_dec ct 0) as [Nc|Nc].
  - rewrite (priv_decrypt_bad p q 2 sk K ct) in D by (unfold in_range; lia). discriminate.
  - destruct (to_bytes_of ct ltac:(lia)) as (b' & Eb' & Vb). assert (b' = cb) as -> by congruence. rewrite Vb. exact D.
Qed.

(** ** Taking a run apart *)
Variable srt : list elem -> list elem.
Hypothesis Hsrt : sorts srt.

Lemma remote_call_inv r f sv last m sv' rep : remote_call C X sqrt_p fuel flag srt r f sv last m = (sv', rep, Ok tt) ->
  f = NoFault /\ server_handle C X sqrt_p fuel flag srt r (fun _ => Ok tt) sv m = (sv', Some rep, Ok tt).
Proof.
  unfold remote_call. destruct f; intros E; try discriminate. split; [reflexivity|]. unfold serve in E.
  assert (W : forall st' status, server_handle C X sqrt_p fuel flag srt r (fun _ => Ok tt) sv m = (st', None, status) -> status <> Ok tt).
  { intros st' status. unfold server_handle. destruct (sv_finished sv); [congruence|]. destruct m as [[|pkb es rs|]|]; try congruence.
    - destruct (encrypt_set C X sqrt_p fuel r sv) as [s' [l| | | |]]; congruence.
    - destruct (compute_intersection C flag srt r sv pkb es rs) as [[? ?]| | | |]; congruence. }
  destruct (server_handle C X sqrt_p fuel flag srt r (fun _ => Ok tt) sv m) as [[st' reply] status]. destruct status as [[]|e| | |]; try discriminate.
  - destruct reply as [rep'|]; [cbn in E; congruence|]. exfalso. exact (W st' (Ok tt) eq_refl eq_refl).
  - destruct reply as [rep'|]; destruct e; cbn in E; congruence.
Qed.
Lemma server_start_inv r inputs sv' rep : server_handle C X sqrt_p fuel flag srt r (fun _ => Ok tt) (server_init inputs) start_protocol = (sv', Some rep, Ok tt) ->
  exists c es, cipher_new C (sr_key r) 0 = Ok c /\ mapM (fun x => let* e := enc C X sqrt_p fuel c x in Ok {| el := e; ad := [] |}) inputs = Ok es /\
    rep = Some (SRoundOne es) /\ sv' = {| sv_inputs := inputs; sv_cipher := Some c; sv_finished := false |}.
Proof.
  unfold server_handle, start_protocol, encrypt_set. cbn [sv_finished sv_cipher server_init sv_inputs]. destruct (cipher_new C (sr_key r) 0) as [c| | | |]; try discriminate.
  destruct (mapM _ inputs) as [es| | | |] eqn:E; try discriminate. intros H. exists c, es. split; [reflexivity|]. split; [exact E|]. split; congruence.
Qed.

Lemma run_inv xs vs key_raw rp rq inputs r1 r2 f1 f2 cl : run_protocol C X sqrt_p fuel isp flag srt xs vs p q key_raw rp rq (server_init inputs) r1 r2 f1 f2 = Ok cl ->
  exists kc ks es sk rows re pk cs zero sum,
    f1 = NoFault /\ f2 = NoFault /\
    cipher_new C key_raw 0 = Ok kc /\ cipher_new C (sr_key r1) 0 = Ok ks /\
    mapM (fun x => let* e := enc C X sqrt_p fuel ks x in Ok {| el := e; ad := [] |}) inputs = Ok es /\
    private_create isp flag p q 2 = Ok sk /\ client_rows C X sqrt_p fuel flag kc sk rp rq 0 xs vs = Ok rows /\
    mapM (fun e => let* x := cipher_reencrypt C kc (el e) in Ok {| el := x; ad := [] |}) es = Ok re /\
    public_create flag (p * q) 2 (sr_gen r2) = Ok pk /\
    mapM (fun e => let* x := cipher_reencrypt C ks (el e) in Ok {| el := x; ad := ad e |}) rows = Ok cs /\
    pub_encrypt flag pk 0 (sr_zero r2) = Ok zero /\
    (let inter := set_intersection (length (srt cs) + length (srt (srt re))) (srt cs) (srt (srt re)) in
     add_all pk zero inter = Ok sum /\ cl_size cl = Z.of_nat (length inter)) /\
    priv_decrypt sk sum = Ok (cl_sum cl) /\ cl_finished cl = true.
Proof.
  intros E. unfold run_protocol in E. apply bind_ok in E. destruct E as (cl0 & E0 & E). unfold client_create in E0. apply bind_ok in E0. destruct E0 as (kc & Ek & E0).
  assert (Ekc : cipher_new C key_raw 0 = Ok kc) by (destruct (cipher_new C key_raw 0); cbn in Ek; congruence). apply (f_equal (fun o => match o with Ok x => x | _ => cl0 end)) in E0. cbn beta iota in E0. subst cl0.
  destruct (remote_call C X sqrt_p fuel flag srt r1 f1 (server_init inputs) None start_protocol) as [[sv1 round_one] s1] eqn:R1. apply bind_ok in E. destruct E as ([] & -> & E).
  apply remote_call_inv in R1. destruct R1 as [-> R1]. apply server_start_inv in R1. destruct R1 as (ks & es & Eks & Ees & -> & ->).
  unfold client_handle at 1 in E. cbn [cl_finished] in E. unfold reencrypt_set in E. cbn [cl_p cl_q cl_cipher cl_elements cl_values cl_finished cl_size cl_sum] in E.
  destruct (private_create isp flag p q 2) as [sk| | | |] eqn:Esk; try discriminate.
  pose proof (safe_prime_facts p Hp) as (_ & Hp5 & _). pose proof (safe_prime_facts q Hq) as (_ & Hq5 & _). assert (Hn : 0 <= p * q) by nia.
  destruct (to_bytes_of (p * q) Hn) as (pkb & Epkb & Vpkb). rewrite Epkb in E. cbn [bind] in E.
  destruct (client_rows C X sqrt_p fuel flag kc sk rp rq 0 xs vs) as [rows| | | |] eqn:Erows; try discriminate. cbn [bind] in E.
  match type of E with context [mapM ?f es] => destruct (mapM f es) as [re| | | |] eqn:Ere end; try discriminate. cbn [bind] in E.
  match type of E with context [remote_call C X sqrt_p fuel flag srt r2 f2 ?a ?b ?c] => destruct (remote_call C X sqrt_p fuel flag srt r2 f2 a b c) as [[sv2 round_two] s3] eqn:R2 end.
  apply bind_ok in E. destruct E as ([] & -> & E). apply remote_call_inv in R2. destruct R2 as [-> R2]. unfold server_handle in R2. cbn [sv_finished] in R2.
  unfold compute_intersection in R2. cbn [sv_cipher] in R2. rewrite Vpkb in R2. destruct (public_create flag (p * q) 2 (sr_gen r2)) as [pk| | | |] eqn:Epk; try discriminate. cbn [bind] in R2.
  match type of R2 with context [mapM ?f rows] => destruct (mapM f rows) as [cs| | | |] eqn:Ecs end; try discriminate. cbn [bind] in R2.
  destruct (pub_encrypt flag pk 0 (sr_zero r2)) as [zero| | | |] eqn:Ez; try discriminate. cbn [bind] in R2.
  set (inter := set_intersection (length (srt cs) + length (srt (srt re))) (srt cs) (srt (srt re))) in *.
  destruct (add_all pk zero inter) as [sum| | | |] eqn:Es; try discriminate. cbn [bind] in R2.
  destruct (to_bytes sum) as [sb| | | |] eqn:Esb; try discriminate. cbn [bind] in R2.
  assert (round_two = Some (SRoundTwo (Z.of_nat (length inter)) sb)) as -> by congruence. clear R2.
  unfold client_handle, decrypt_sum in E. cbn [cl_finished cl_paillier] in E.
  destruct (Z_lt_dec sum 0) as [Ns|Ns]; [unfold to_bytes in Esb; destruct (Z.ltb_spec sum 0); try lia; discriminate|].
  destruct (to_bytes_of sum ltac:(lia)) as (b & Eb & Vb). assert (b = sb) as -> by congruence. rewrite Vb in E.
  destruct (priv_decrypt sk sum) as [m| | | |] eqn:Ed; try discriminate. cbn [bind] in E.
  exists kc, ks, es, sk, rows, re, pk, cs, zero, sum. repeat (split; [first [reflexivity|assumption]|]).
  cbn [cl_elements cl_values cl_p cl_q cl_cipher] in E.
  assert (Ecl : cl = {| cl_elements := xs; cl_values := vs; cl_p := p; cl_q := q; cl_cipher := kc; cl_paillier := Some sk; cl_finished := true; cl_size := Z.of_nat (length inter); cl_sum := m |}) by congruence.
  rewrite Ecl. cbn [cl_size cl_sum cl_finished]. fold inter. repeat (split; try assumption; try reflexivity).
Qed.

(** The heart of the protocol: what a completed run has computed. *)
Lemma run_result xs vs key_raw rp rq inputs r1 r2 f1 f2 cl : run_protocol C X sqrt_p fuel isp flag srt xs vs p q key_raw rp rq (server_init inputs) r1 r2 f1 f2 = Ok cl ->
  (forall a b, In a (xs ++ inputs) -> In b (xs ++ inputs) -> hashes a = hashes b -> a = b) ->
  map fst (combine xs vs) = xs /\ exists chosen, multi_intersection (combine xs vs) inputs chosen /\ cl_size cl = Z.of_nat (length chosen) /\ cl_sum cl = zsum (map snd chosen) mod M /\ cl_finished cl = true.
Proof.
  intros E Hinj. destruct (run_inv _ _ _ _ _ _ _ _ _ _ _ E) as (kc & ks & es & sk & rows & re & pk & cs & zero & sum & _ & _ & Ekc & Eks & Ees & Esk & Erows & Ere & Epk & Ecs & Ez & (Es & Esz) & Ed & Ef). clear E.
  destruct (cipher_new_good _ _ Ekc) as [Gc Hc]. destruct (cipher_new_good _ _ Eks) as [Gs Hs].
  destruct (client_rows_inv kc sk rp rq Esk _ _ _ _ Erows) as [Frows Efst]. split; [exact Efst|]. apply mapM_Forall2 in Ees, Ere, Ecs. set (k := ci_key kc * ci_key ks).
  pose proof (key_product kc ks Gc Gs) as Hk. fold k in Hk.
  (* both sides doubly encrypted *)
  assert (Fcs : Forall2 (fun xv e => dbl k (fst xv) (el e) /\ holds sk (snd xv) e) (combine xs vs) cs).
  { eapply Forall2_trans; [|exact Frows|exact Ecs]. intros [x v] e e' [H1 H2] H3. cbn [fst snd] in *. apply bind_ok in H3. destruct H3 as (b & Eb & H3). injection H3 as <-. cbn [el ad].
    split; [exact (dbl_enc kc ks x (el e) b Gc Gs Hc H1 Eb)|exact H2]. }
  assert (Fre : Forall2 (fun x e => dbl k x (el e)) inputs re).
  { eapply Forall2_trans; [|exact Ees|exact Ere]. cbn beta. intros x e e' H1 H2. apply bind_ok in H1, H2. destruct H1 as (b & Eb & H1), H2 as (b' & Eb' & H2). injection H1 as <-. injection H2 as <-. cbn [el] in *.
    unfold k. rewrite Z.mul_comm. exact (dbl_enc ks kc x b b' Gs Gc Hs Eb Eb'). }
  (* sorting *)
  destruct (Hsrt cs) as [Pcs Scs]. destruct (Hsrt (srt re)) as [Pre2 Sre]. destruct (Hsrt re) as [Pre1 _]. pose proof (perm_trans Pre1 Pre2) as Pre. clear Pre1 Pre2.
  set (a := srt cs) in *. set (b := srt (srt re)) in *. set (inter := set_intersection (length a + length b) a b) in *.
  destruct (set_intersection_spec (length a + length b) a b ltac:(lia) Scs Sre) as ((rest & Prest) & Hcount). fold inter in Prest, Hcount.
  destruct (Forall2_perm_r _ _ _ _ Fcs (perm_trans Pcs Prest)) as (pairs & Pp & Fp). apply Forall2_app_inv_r in Fp. destruct Fp as (chosen & others & Fch & Foth & ->).
  exists chosen. split; [split|].
  - exists others. exact Pp.
  - intros x. assert (Hmem : incl (map fst chosen) xs).
    { rewrite <- Efst. intros y Hy. apply in_map_iff in Hy. destruct Hy as (z & <- & Hz). apply in_map. eapply Permutation_in; [symmetry; exact Pp|]. apply in_or_app. left. exact Hz. }
    rewrite Efst. destruct (in_dec bytes_dec x (xs ++ inputs)) as [Hin|Hout].
    + assert (Hx : exists d, dbl k x d).
      { apply in_app_or in Hin. destruct Hin as [Hin|Hin].
        - rewrite <- Efst in Hin. apply in_map_iff in Hin. destruct Hin as ([x' v'] & <- & Hin). clear -Fcs Hin. induction Fcs as [|? e ? ? [H _] _ IH]; [contradiction|]. destruct Hin as [->|Hin]; [eauto|exact (IH Hin)].
        - clear -Fre Hin. induction Fre as [|? e ? ? H _ IH]; [contradiction|]. destruct Hin as [->|Hin]; [eauto|exact (IH Hin)]. }
      destruct Hx as (d & Hd).
      assert (F1 : Forall2 (dbl k) (map fst chosen) (map el inter)) by (clear -Fch; induction Fch as [|? ? ? ? [H _] _ IH]; cbn [map]; constructor; assumption).
      assert (F2 : Forall2 (dbl k) xs (map el cs)) by (rewrite <- Efst; clear -Fcs; induction Fcs as [|? ? ? ? [H _] _ IH]; cbn [map]; constructor; assumption).
      assert (F3 : Forall2 (dbl k) inputs (map el re)) by (clear -Fre; induction Fre as [|? ? ? ? H _ IH]; cbn [map]; constructor; assumption).
      rewrite (dbl_count k (xs ++ inputs) x d Hk Hinj Hin Hd _ _ ltac:(intros y Hy; apply in_or_app; left; exact (Hmem y Hy)) F1).
      rewrite (dbl_count k (xs ++ inputs) x d Hk Hinj Hin Hd _ _ ltac:(intros y Hy; apply in_or_app; left; exact Hy) F2).
      rewrite (dbl_count k (xs ++ inputs) x d Hk Hinj Hin Hd _ _ ltac:(intros y Hy; apply in_or_app; right; exact Hy) F3).
      rewrite Hcount. f_equal; apply count_perm, Permutation_map; symmetry; assumption.
    + rewrite !count_0; [reflexivity|..]; intros H; apply Hout; apply in_or_app; [right|left|left; apply Hmem]; exact H.
  - rewrite Esz, (Forall2_len _ _ _ Fch). split; [reflexivity|]. split; [|exact Ef].
    assert (Fv : Forall2 (holds sk) (map snd chosen) inter) by (clear -Fch; induction Fch as [|? ? ? ? [_ H] _ IH]; cbn [map]; constructor; assumption).
    pose proof (safe_prime_facts p Hp) as (_ & Hp5 & _). pose proof (safe_prime_facts q Hq) as (_ & Hq5 & _). assert (MP : 0 < M) by (apply Z.pow_pos_nonneg; nia).
    destruct (C24_public_roundtrip isp flag p q 2 sk (sr_gen r2) pk 0 (sr_zero r2) Hp Hq ltac:(lia) Esk Epk) as (z & Ez' & Dz); [change (Z.of_nat 2) with 2; lia|].
    assert (z = zero) as -> by congruence. destruct (add_all_dec sk Esk pk (sr_gen r2) Epk inter _ zero 0 Fv Dz ltac:(lia)) as (c' & Ec' & Dc'). assert (c' = sum) as -> by congruence.
    rewrite Ed in Dc'. rewrite Z.add_0_l in Dc'. congruence.
Qed.

(** ** A run that nothing disturbs completes. *)
Lemma mapM_total {A B} (f : A -> outcome B) xs : Forall (fun x => exists y, f x = Ok y) xs -> exists ys, mapM f xs = Ok ys.
Proof. induction 1 as [|x xs (y & E) _ (ys & IH)]; cbn [mapM]; [eauto|]. rewrite E, IH. cbn [bind]. eauto. Qed.
Lemma client_rows_ok c sk rp rq : good C c -> ci_hash c = 0 -> private_create isp flag p q 2 = Ok sk -> forall xs vs i, (length xs <= length vs)%nat ->
  Forall (fun x => exists P, hashes x = Ok P /\ P <> pinf C) xs -> Forall (fun v => 0 <= v < M) vs -> exists rows, client_rows C X sqrt_p fuel flag c sk rp rq i xs vs = Ok rows.
Proof.
  intros G H0 Esk. pose proof (private_inv isp flag p q 2 sk Hp Hq ltac:(lia) Esk) as K. induction xs as [|x xs IH]; intros vs i Hl Hx Hv; cbn [client_rows]; [eauto|].
  inversion Hx as [|? ? (P & EP & NP) Hx']; subst. rewrite (enc_ok c x P G H0 EP NP). cbn [bind]. destruct vs as [|v vs]; [cbn [length] in Hl; lia|]. inversion Hv as [|? ? Bv Hv']; subst.
  destruct (priv_encrypt_ok flag p q 2 sk K v (rp i) (rq i) Bv) as (ct & Ect & Bct & _). rewrite Ect. cbn [bind]. destruct (to_bytes_of ct ltac:(apply Bct)) as (b & Eb & _). rewrite Eb. cbn [bind].
  destruct (IH vs (S i) ltac:(cbn [length] in Hl; lia) Hx' Hv') as (rows & Er). rewrite Er. cbn [bind]. eauto.
Qed.
Lemma run_ok xs vs key_raw rp rq inputs r1 r2 : p <> q -> isp p = true -> isp q = true ->
  (exists x, 2 <= x <= 1001 /\ x < p - 1 /\ x ^ ((p - 1) / 2) mod p <> 1) -> (exists x, 2 <= x <= 1001 /\ x < q - 1 /\ x ^ ((q - 1) / 2) mod q <> 1) ->
  (length xs <= length vs)%nat -> Forall (fun v => 0 <= v < M) vs -> Forall (fun x => exists P, hashes x = Ok P /\ P <> pinf C) (xs ++ inputs) ->
  (exists i, In i (sr_gen r2) /\ Z.gcd (i mod (p * q)) (p * q) = 1) ->
  exists cl, run_protocol C X sqrt_p fuel isp flag srt xs vs p q key_raw rp rq (server_init inputs) r1 r2 NoFault NoFault = Ok cl.
Proof.
  intros Npq Ip Iq Gp Gq Hl Hv Hx Hd. pose proof (safe_prime_facts p Hp) as (Pp & Hp5 & Op). pose proof (safe_prime_facts q Hq) as (Pq & Hq5 & Oq). assert (Hn : 1 < p * q) by nia. apply Forall_app in Hx. destruct Hx as [Hx Hi].
  unfold run_protocol, client_create. destruct (cipher_new_ok key_raw) as (kc & Ekc). rewrite Ekc. cbn [value_or_crash bind]. destruct (cipher_new_good _ _ Ekc) as [Gc Hc].
  unfold remote_call at 1, serve at 1, server_handle at 1, start_protocol, encrypt_set. cbn [sv_finished sv_cipher server_init sv_inputs].
  destruct (cipher_new_ok (sr_key r1)) as (ks & Eks). rewrite Eks. destruct (cipher_new_good _ _ Eks) as [Gs Hs].
  match goal with |- context [mapM ?f inputs] => destruct (mapM_total f inputs) as (es & Ees) end.
  { eapply Forall_impl; [|exact Hi]. cbn beta. intros x (P & EP & NP). rewrite (enc_ok ks x P Gs Hs EP NP). cbn [bind]. eauto. }
  rewrite Ees. cbn [rpc_handle run_handler single_sink convert_status bind].
  unfold client_handle at 1. cbn [cl_finished]. unfold reencrypt_set. cbn [cl_p cl_q cl_cipher cl_elements cl_values cl_finished cl_size cl_sum].
  destruct (private_create_ok isp flag p q 2 Hp Hq Ip Iq Npq ltac:(lia) ltac:(lia) ltac:(lia) Gp Gq) as (sk & Esk). rewrite Esk.
  destruct (to_bytes_of (p * q) ltac:(lia)) as (pkb & Epkb & Vpkb). rewrite Epkb. cbn [bind].
  destruct (client_rows_ok kc sk rp rq Gc Hc Esk xs vs 0 Hl Hx Hv) as (rows & Erows). rewrite Erows. cbn [bind].
  match goal with |- context [mapM ?f es] => destruct (mapM_total f es) as (re & Ere) end.
  { apply mapM_Forall2 in Ees. clear - L Gc Hs Gs Hi Ees. induction Ees as [|x e inputs es H _ IH]; [constructor|]. inversion Hi as [|? ? (P & EP & NP) Hi']; subst. constructor; [|exact (IH Hi')].
    rewrite (enc_ok ks x P Gs Hs EP NP) in H. cbn [bind] in H. assert (e = {| el := ec_enc C (pmul C (ci_key ks) P); ad := [] |}) as -> by congruence. cbn [el].
    destruct (reenc_ok kc (ci_key ks) P Gc (factor_unit C L (Add ks) Gs) NP) as (b & Eb). rewrite Eb. cbn [bind]. eauto. }
  rewrite Ere. cbn [bind]. unfold remote_call, serve, server_handle. cbn [sv_finished]. unfold compute_intersection. cbn [sv_cipher]. rewrite Vpkb.
  assert (Fc : fact_coprime (p * q) 2).
  { intros i Hi2. apply Zgcd_1_rel_prime. apply rel_prime_mult; apply Zgcd_1_rel_prime; [apply (prime_fact_coprime p 2 Pp ltac:(lia))|apply (prime_fact_coprime q 2 Pq ltac:(lia))]; exact Hi2. }
  destruct (public_create_ok isp flag (p * q) 2 (sr_gen r2) Hn ltac:(rewrite Z.odd_mul, Op, Oq; reflexivity) Fc Hd) as (pk & Epk). rewrite Epk. cbn [bind].
  pose proof (client_rows_inv kc sk rp rq Esk _ _ _ _ Erows) as [Frows Efst].
  match goal with |- context [mapM ?f rows] => destruct (mapM_total f rows) as (cs & Ecs) end.
  { assert (Hx2 : Forall (fun xv => exists P, hashes (fst xv) = Ok P /\ P <> pinf C) (combine xs vs)) by (apply (Forall_map fst (fun x => exists P, hashes x = Ok P /\ P <> pinf C)); rewrite Efst; exact Hx).
    clear - L Gc Hc Gs Hx2 Frows. induction Frows as [|[x v] e xvs rows [H _] _ IH]; [constructor|]. inversion Hx2 as [|? ? (P & EP & NP) Hx']; subst. constructor; [|exact (IH Hx')]. cbn [fst] in *.
    rewrite (enc_ok kc x P Gc Hc EP NP) in H. assert (el e = ec_enc C (pmul C (ci_key kc) P)) as -> by congruence.
    destruct (reenc_ok ks (ci_key kc) P Gs (factor_unit C L (Add kc) Gc) NP) as (b & Eb). rewrite Eb. cbn [bind]. eauto. }
  rewrite Ecs. cbn [bind]. assert (MP : 0 < M) by (apply Z.pow_pos_nonneg; lia).
  destruct (C24_public_roundtrip isp flag p q 2 sk (sr_gen r2) pk 0 (sr_zero r2) Hp Hq ltac:(lia) Esk Epk) as (zero & Ez & Dz); [change (Z.of_nat 2) with 2; lia|]. rewrite Ez. cbn [bind].
  set (inter := set_intersection (length (srt cs) + length (srt (srt re))) (srt cs) (srt (srt re))).
  assert (Hinter : exists vs', Forall2 (holds sk) vs' inter).
  { assert (Hh : Forall (fun e => exists v, holds sk v e) cs).
    { apply mapM_Forall2 in Ecs. clear -Ecs Frows. revert Frows. generalize (combine xs vs). induction Ecs as [|e e' rows cs H _ IH]; intros xvs F; [constructor|]. inversion F as [|[x v] ? xvs' ? [_ Hh] F']; subst. constructor; [|exact (IH _ F')].
      apply bind_ok in H. destruct H as (b & _ & H). injection H as <-. exists v. exact Hh. }
    assert (Hi2 : Forall (fun e => exists v, holds sk v e) inter).
    { destruct (Hsrt cs) as [Pcs Scs]. destruct (Hsrt (srt re)) as [_ Sre]. destruct (set_intersection_spec _ _ _ (le_n _) Scs Sre) as ((rest & Pr) & _). fold inter in Pr.
      pose proof (Permutation_Forall (perm_trans Pcs Pr) Hh) as Ha. apply Forall_app in Ha. apply Ha. }
    clear -Hi2. induction Hi2 as [|e l (v & H) _ (vs' & IH)]; [exists []; constructor|]. exists (v :: vs'). constructor; assumption. }
  destruct Hinter as (vs' & Fv). destruct (add_all_dec sk Esk pk (sr_gen r2) Epk inter vs' zero 0 Fv Dz ltac:(lia)) as (sum & Es & Ds). rewrite Es. cbn [bind].
  pose proof (private_inv isp flag p q 2 sk Hp Hq ltac:(lia) Esk) as K. assert (Hs0 : 0 <= sum).
  { destruct (Z_lt_dec sum 0) as [N|N]; [|lia]. rewrite (priv_decrypt_bad p q 2 sk K sum) in Ds by (unfold in_range; lia). discriminate. }
  destruct (to_bytes_of sum Hs0) as (sb & Esb & Vsb). rewrite Esb. cbn [bind rpc_handle run_handler single_sink convert_status].
  unfold client_handle, decrypt_sum. cbn [cl_finished cl_paillier]. rewrite Vsb, Ds. cbn [bind]. eauto.
Qed.
End Crypto.

(** An actual sorting function, for the examples. *)
Fixpoint ins (x : elem) (l : list elem) : list elem :=
  match l with [] => [x] | y :: r => if bytes_ltb (el y) (el x) then y :: ins x r else x :: l end.
Definition isort (l : list elem) : list elem := fold_right ins [] l.
Lemma ins_perm x l : Permutation (x :: l) (ins x l).
Proof. induction l as [|y l IH]; cbn [ins]; [reflexivity|]. destruct (bytes_ltb (el y) (el x)); [|reflexivity]. rewrite perm_swap. constructor. exact IH. Qed.
Lemma ins_sorted x l : StronglySorted le_el l -> StronglySorted le_el (ins x l).
Proof.
  induction 1 as [|y l Hl IH Hy]; cbn [ins]; [repeat constructor|]. destruct (bytes_ltb (el y) (el x)) eqn:E.
  - constructor; [exact IH|]. eapply Permutation_Forall; [apply ins_perm|]. constructor; [apply bytes_ltb_asym, E|exact Hy].
  - constructor; [constructor; assumption|]. constructor; [exact E|]. eapply Forall_impl; [|exact Hy]. intros z Hz. unfold le_el in *.
    destruct (bytes_ltb (el z) (el x)) eqn:E2; [|reflexivity]. destruct (bytes_ltb (el y) (el z)) eqn:E3.
    + rewrite (bytes_ltb_trans _ _ _ E3 E2) in E. discriminate.
    + rewrite (bytes_ltb_total _ _ E3 Hz) in E. congruence.
Qed.
Lemma isort_sorts : sorts isort.
Proof.
  intros l. split.
  - induction l as [|x l IH]; cbn [isort fold_right]; [reflexivity|]. rewrite <- ins_perm. constructor. exact IH.
  - induction l as [|x l IH]; cbn [isort fold_right]; [constructor|]. apply ins_sorted, IH.
Qed.

(** Distinct client identifiers leave no choice. *)
Lemma multi_intersection_nodup rows server chosen : NoDup (map fst rows) -> multi_intersection rows server chosen -> Permutation chosen (common rows server).
Proof.
  intros ND ((rest & Pr) & Hc). assert (NDr : NoDup rows) by (eapply NoDup_map_inv, ND).
  pose proof (Permutation_NoDup Pr NDr) as NDa. assert (NDc : NoDup chosen) by (clear -NDa; induction chosen as [|x l IH]; [constructor|]; cbn [app] in NDa; inversion NDa; subst; constructor; [intros H; apply H1; apply in_or_app; left; exact H|apply IH; assumption]).
  apply NoDup_Permutation; [exact NDc|apply NoDup_filter, NDr|]. intros [x v]. unfold common. rewrite filter_In. cbn [fst]. split.
  - intros H. assert (Hr : In (x, v) rows) by (eapply Permutation_in; [symmetry; exact Pr|apply in_or_app; left; exact H]). split; [exact Hr|].
    destruct (in_dec bytes_dec x server) as [_|N]; [reflexivity|exfalso]. specialize (Hc x). rewrite (count_0 x server N), Nat.min_0_r in Hc. apply count_occ_not_In in Hc. apply Hc. apply (in_map fst) in H. exact H.
  - intros [Hr Hs]. destruct (in_dec bytes_dec x server) as [Hin|]; [|discriminate]. specialize (Hc x). pose proof (in_map fst _ _ Hr) as Hx. cbn [fst] in Hx.
    apply (count_occ_In bytes_dec) in Hin, Hx. fold (count x server) in Hin. fold (count x (map fst rows)) in Hx. assert (Hpos : (count x (map fst chosen) > 0)%nat) by lia. apply count_occ_In in Hpos.
    apply in_map_iff in Hpos. destruct Hpos as ([x' w] & E & Hin2). cbn [fst] in E. subst x'. assert (Hr2 : In (x, w) rows) by (eapply Permutation_in; [symmetry; exact Pr|apply in_or_app; left; exact Hin2]).
    assert (v = w) as ->; [|exact Hin2]. clear -ND Hr Hr2. induction rows as [|[y u] rows IH]; [contradiction|]. cbn [map fst] in ND. inversion ND as [|? ? N ND']; subst.
    destruct Hr as [E1|Hr], Hr2 as [E2|Hr2]; [congruence| | |exact (IH ND' Hr Hr2)]; exfalso; apply N; [injection E1 as -> ->|injection E2 as -> ->]; [apply (in_map fst) in Hr2; exact Hr2|apply (in_map fst) in Hr; exact Hr].
Qed.

(** ** Histories *)
Lemma mapM_err {A B} (f : A -> outcome B) xs e : mapM f xs = Err e -> exists x, In x xs /\ f x = Err e.
Proof.
  induction xs as [|x xs IH]; cbn [mapM]; intros E; [discriminate|]. destruct (f x) as [y|e'| | |] eqn:Ef; cbn [bind] in E; try discriminate.
  - destruct (mapM f xs) as [ys|e'| | |]; cbn [bind] in E; try discriminate. destruct (IH E) as (z & Hz & Ez). exists z. split; [right; exact Hz|exact Ez].
  - exists x. split; [left; reflexivity|]. congruence.
Qed.

Section ServerHistories.
Variable C : ec.
Hypothesis L : ec_laws C.
Variable X : externals.
Variable sqrt_p : Z -> Z.
Hypothesis Hsq : sqrt_ok (ec_p C) sqrt_p.
Hypothesis Hb : bit_length (ec_p C) <= 129024.
Variable fuel : nat.
Variable flag : bool.
Variable srt : list elem -> list elem.

Lemma hash_no_err x e : hashes C X sqrt_p fuel x <> Err e.
Proof. unfold hashes. change (hash_internal C X sqrt_p None fuel 0 x) with (hash_to_curve C sqrt_p 256 (sha256 X) fuel x). destruct (C33_hash_outcomes C sqrt_p 256 (sha256 X) fuel x L Hsq ltac:(lia) Hb) as [(P & E & _)|E]; rewrite E; discriminate. Qed.
Lemma hash_not_inf x P : hashes C X sqrt_p fuel x = Ok P -> P <> pinf C.
Proof. intros E. apply (C33_hash_gives_curve_point C sqrt_p 256 (sha256 X) fuel x P L Hsq E). Qed.

(** Where a server is, and what it has sent so far. *)
Definition server_phase (inputs : list bytes) (sent : list server_message) (st : server) : Prop :=
  sv_inputs st = inputs /\
  ((sv_cipher st = None /\ sv_finished st = false /\ sent = []) \/
   ((exists c, sv_cipher st = Some c) /\ sv_finished st = false /\ exists es, sent = [Some (SRoundOne es)]) \/
   ((exists c, sv_cipher st = Some c) /\ sv_finished st = true /\ exists es n b, sent = [Some (SRoundOne es); Some (SRoundTwo n b)])).
Lemma phase_step inputs sent st r snd m st' reply status : server_phase inputs sent st -> server_handle C X sqrt_p fuel flag srt r snd st m = (st', reply, status) -> alive status ->
  server_phase inputs (sent ++ match reply with Some x => [x] | None => [] end) st'.
Proof.
  intros [Hi P] E A. unfold server_handle in E. destruct (sv_finished st) eqn:Ef.
  - injection E as <- <- <-. rewrite app_nil_r. split; [exact Hi|]. rewrite Ef. exact P.
  - destruct m as [[|pkb es rs|]|].
    + unfold encrypt_set in E. destruct (sv_cipher st) as [c|] eqn:Ec; [injection E as <- <- <-; rewrite app_nil_r; split; [exact Hi|rewrite Ef, Ec; exact P]|].
      destruct P as [(_ & _ & ->)|[((c & Hc) & _)|((c & Hc) & _)]]; try congruence. destruct (cipher_new_ok C L (sr_key r)) as (c & En). rewrite En in E. destruct (cipher_new_good C L X _ _ En) as [G H0]. 
      destruct (mapM _ (sv_inputs st)) as [es|e| | |] eqn:Em; injection E as <- <- <-.
      * split; [exact Hi|]. right; left. cbn. rewrite ?Ef. eauto.
      * exfalso. apply mapM_err in Em. destruct Em as (x & _ & Ex). destruct (enc C X sqrt_p fuel c x) as [b|e'| | |] eqn:Ee; cbn [bind] in Ex; try discriminate.
        exact (enc_not_err C L X sqrt_p fuel c x e' G H0 (hash_no_err x) (hash_not_inf x) Ee).
      * destruct A as [A|(e & A)]; discriminate.
      * destruct A as [A|(e & A)]; discriminate.
      * destruct A as [A|(e & A)]; discriminate.
    + destruct (compute_intersection C flag srt r st pkb es rs) as [[sz sb]|e| | |] eqn:Ec; injection E as <- <- <-; rewrite ?app_nil_r; try (destruct A as [A|(e' & A)]; discriminate).
      * unfold compute_intersection in Ec. destruct (sv_cipher st) as [c|] eqn:Es; [|discriminate]. destruct P as [(H & _)|[(_ & _ & es' & ->)|(_ & H & _)]]; try congruence.
        split; [exact Hi|]. right; right. cbn. eauto 8.
      * split; [exact Hi|]. rewrite Ef. exact P.
    + injection E as <- <- <-. rewrite app_nil_r. split; [exact Hi|]. rewrite Ef. exact P.
    + injection E as <- <- <-. rewrite app_nil_r. split; [exact Hi|]. rewrite Ef. exact P.
Qed.
Lemma history_phase inputs h st : server_history C X sqrt_p fuel flag srt inputs h st -> server_phase inputs (replies h) st.
Proof.
  induction 1 as [|h st r snd m st' reply status _ IH E A]; [split; [reflexivity|left; repeat split]|]. unfold replies in *. rewrite flat_map_app. cbn [flat_map se_reply]. rewrite app_nil_r. exact (phase_step _ _ _ _ _ _ _ _ _ IH E A).
Qed.
End ServerHistories.
