(** Lemmas on Pedersen commitments. *)
From Verif Require Import Base M_BigNum M_Num M_Simul M_Proto M_Pedersen S_Exp S_Pedersen L_BigNum L_Num L_Mod L_DJ L_Exp L_CS L_PaillierKey L_Protocol.
Require Import Znumtheory Zpow_facts.

Lemma multi_exp_pad gs h ms r k : (length ms <= length gs)%nat -> k = (length gs - length ms)%nat ->
  multi_exp (gs ++ [h]) (ms ++ repeat 0 k ++ [r]) = multi_exp gs ms * h ^ r.
Proof.
  intros L ->. revert ms L. induction gs as [|g gs IH]; intros ms L.
  - destruct ms; [|cbn in L; lia]. cbn [length Nat.sub repeat app multi_exp]. lia.
  - destruct ms as [|m ms]; cbn [length] in L.
    + cbn [length Nat.sub repeat app multi_exp]. rewrite Z.pow_0_r. specialize (IH [] ltac:(cbn; lia)). rewrite Nat.sub_0_r in IH. cbn [app] in IH. rewrite IH.
      destruct gs; cbn [multi_exp]; lia.
    + cbn [length Nat.sub app multi_exp]. rewrite IH by lia. lia.
Qed.

Lemma multi_exp_vadd gs xs ys : Forall (fun m => 0 <= m) xs -> Forall (fun m => 0 <= m) ys ->
  multi_exp gs (vadd xs ys) = multi_exp gs xs * multi_exp gs ys.
Proof.
  revert xs ys. induction gs as [|g gs IH]; intros xs ys Hx Hy; [reflexivity|].
  destruct xs as [|x xs], ys as [|y ys]; cbn [vadd multi_exp]; try lia.
  inversion Hx; inversion Hy; subst. rewrite Z.pow_add_r by assumption. rewrite IH by assumption. lia.
Qed.
Lemma multi_exp_vscale gs xs k : Forall (fun m => 0 <= m) xs -> 0 <= k -> multi_exp gs (vscale k xs) = multi_exp gs xs ^ k.
Proof.
  revert xs. induction gs as [|g gs IH]; intros xs Hx Hk; [cbn; rewrite Z.pow_1_l; lia|].
  destruct xs as [|x xs]; cbn [vscale map multi_exp]; [rewrite Z.pow_1_l; lia|].
  inversion Hx; subst. rewrite Z.pow_mul_l. rewrite <- Z.pow_mul_r by assumption. rewrite (Z.mul_comm k x). unfold vscale in IH. rewrite IH by assumption. reflexivity.
Qed.
Lemma vadd_length xs ys k : (length xs <= k)%nat -> (length ys <= k)%nat -> (length (vadd xs ys) <= k)%nat.
Proof.
  revert ys k. induction xs as [|x xs IH]; intros ys k Hx Hy; [exact Hy|]. destruct ys as [|y ys]; [exact Hx|].
  cbn [vadd length] in *. destruct k; [lia|]. specialize (IH ys k). lia.
Qed.
Lemma vadd_nonneg xs ys : Forall (fun m => 0 <= m) xs -> Forall (fun m => 0 <= m) ys -> Forall (fun m => 0 <= m) (vadd xs ys).
Proof.
  revert ys. induction xs as [|x xs IH]; intros ys Hx Hy; [exact Hy|]. destruct ys as [|y ys]; [exact Hx|].
  cbn [vadd]. inversion Hx; inversion Hy; subst. constructor; [lia|]. apply IH; assumption.
Qed.
Lemma vscale_nonneg xs k : 0 <= k -> Forall (fun m => 0 <= m) xs -> Forall (fun m => 0 <= m) (vscale k xs).
Proof. intros Hk H. induction H; cbn; constructor; [nia|assumption]. Qed.

Lemma admissible_plain k e : admissible k e -> (length (messages e) <= k)%nat /\ Forall (fun m => 0 <= m) (messages e) /\ 0 <= opening e.
Proof.
  induction e as [ms r|a IHa b IHb|a IHa c]; cbn [admissible messages opening].
  - tauto.
  - intros [Ha Hb]. destruct (IHa Ha) as (A1 & A2 & A3), (IHb Hb) as (B1 & B2 & B3). split; [apply vadd_length; assumption|]. split; [apply vadd_nonneg; assumption|lia].
  - intros [Ha Hc]. destruct (IHa Ha) as (A1 & A2 & A3). split; [unfold vscale; rewrite map_length; assumption|]. split; [apply vscale_nonneg; assumption|nia].
Qed.

Lemma forallb_nonneg ms : forallb is_non_negative ms = true <-> Forall (fun m => 0 <= m) ms.
Proof.
  rewrite forallb_forall, Forall_forall. unfold is_non_negative. split; intros H x Hx; specialize (H x Hx).
  - destruct (Z.ltb_spec x 0); [discriminate|assumption].
  - destruct (Z.ltb_spec x 0); [lia|reflexivity].
Qed.

Lemma map_abs_nonneg ms : Forall (fun m => 0 <= m) ms -> map Z.abs ms = ms.
Proof. induction 1; [reflexivity|]. cbn [map]. rewrite Z.abs_eq by assumption. f_equal. assumption. Qed.

Definition ped_ok (pd : pedersen) : Prop :=
  1 < pp_n (pd_par pd) /\
  forall es, length es = S (length (pp_gs (pd_par pd))) ->
    simultaneous_exp Z (zn_mul (pp_n (pd_par pd))) zn_is_zero (pd_exp pd) es =
      Ok (multi_exp (pp_gs (pd_par pd) ++ [pp_h (pd_par pd)]) (map Z.abs es) mod pp_n (pd_par pd)).

Lemma ped_create_ok pp num : 1 < pp_n pp -> (1 <= num)%nat -> (Nat.min (S (length (pp_gs pp))) num <= 30)%nat ->
  exists pd, ped_create pp num = Ok pd /\ pd_par pd = pp /\ ped_ok pd.
Proof.
  intros Hn H1 H30. unfold ped_create.
  destruct (zn_simul (pp_n pp) ltac:(lia) (pp_gs pp ++ [pp_h pp]) (Nat.min (length (pp_gs pp ++ [pp_h pp])) num)) as (t & E & Ht);
    try (rewrite app_length; cbn [length]; lia).
  rewrite E. cbn [value_or_crash bind]. eexists. split; [reflexivity|]. split; [reflexivity|]. split; [exact Hn|]. cbn [pd_par pd_exp].
  intros es L. apply Ht. rewrite app_length. cbn [length]. lia.
Qed.

Lemma ped_create_inv pp num pd : 1 < pp_n pp -> (length (pp_gs pp) <= 29)%nat \/ (num <= 30)%nat -> ped_create pp num = Ok pd -> pd_par pd = pp /\ ped_ok pd.
Proof.
  intros Hn Hb E. destruct num as [|num].
  - exfalso. unfold ped_create in E. rewrite Nat.min_0_r in E. unfold simul_create in E. cbn in E. discriminate.
  - destruct (ped_create_ok pp (S num) Hn) as (pd' & E' & P & O'); [lia|destruct Hb; lia|]. rewrite E' in E. injection E as <-. split; assumption.
Qed.

Lemma ped_product pd ms r : ped_ok pd -> (length ms <= length (pp_gs (pd_par pd)))%nat -> Forall (fun m => 0 <= m) ms -> 0 <= r ->
  simultaneous_exp Z (zn_mul (pp_n (pd_par pd))) zn_is_zero (pd_exp pd) (ms ++ repeat 0 (length (pp_gs (pd_par pd)) - length ms) ++ [r]) =
  Ok (commitment (pp_gs (pd_par pd)) (pp_h (pd_par pd)) (pp_n (pd_par pd)) ms r).
Proof.
  intros [Hn H] L P R. rewrite H.
  2:{ rewrite !app_length, repeat_length. cbn [length]. lia. }
  rewrite !map_app, map_abs_nonneg by assumption. cbn [map]. rewrite (Z.abs_eq r) by assumption.
  replace (map Z.abs (repeat 0 (length (pp_gs (pd_par pd)) - length ms))) with (repeat 0 (length (pp_gs (pd_par pd)) - length ms)).
  2:{ symmetry. apply map_abs_nonneg. apply Forall_forall. intros x Hx. apply repeat_spec in Hx. lia. }
  rewrite multi_exp_pad by (assumption || reflexivity). reflexivity.
Qed.

(** The guards of CommitWithRand and Verify. *)
Definition legal (pd : pedersen) (ms : list Z) (r : Z) : Prop :=
  (length ms <= length (pp_gs (pd_par pd)))%nat /\ Forall (fun m => 0 <= m) ms /\ 0 <= r.

Lemma guards {A} pd ms r (k : outcome A) :
  (legal pd ms r /\
   (if (length (pp_gs (pd_par pd)) <? length ms)%nat then Err InvalidArgument
    else if negb (forallb is_non_negative ms) then Err InvalidArgument
    else if negb (is_non_negative r) then Err InvalidArgument else k) = k) \/
  (~ legal pd ms r /\
   (if (length (pp_gs (pd_par pd)) <? length ms)%nat then Err InvalidArgument
    else if negb (forallb is_non_negative ms) then Err InvalidArgument
    else if negb (is_non_negative r) then Err InvalidArgument else k) = Err InvalidArgument).
Proof.
  unfold legal. destruct (Nat.ltb_spec (length (pp_gs (pd_par pd))) (length ms)); [right; split; [lia|reflexivity]|].
  pose proof (forallb_nonneg ms) as F. destruct (forallb is_non_negative ms); cbn [negb].
  - unfold is_non_negative. destruct (Z.ltb_spec r 0); cbn [negb]; [right; split; [lia|reflexivity]|left; split; [|reflexivity]].
    split; [assumption|]. split; [apply F; reflexivity|assumption].
  - right. split; [|reflexivity]. intros (_ & H1 & _). apply F in H1. discriminate.
Qed.

(** ** Challenges *)
Lemma challenge_bits_ok k c : 0 <= c -> challenge_bits k c = Ok (map (fun i => Z.testbit c (Z.of_nat i)) (seq 0 k)).
Proof.
  revert c. induction k as [|k IH]; intros c Hc; [reflexivity|].
  cbn [challenge_bits]. unfold bn_rshift. destruct (Z.ltb_spec 1 0); [lia|]. change (2 ^ 1) with 2. rewrite Z.quot_div_nonneg by lia. cbn [bind].
  assert (0 <= c / 2) by (apply Z.div_pos; lia). rewrite IH by assumption. cbn [bind].
  f_equal. cbn [seq map]. f_equal; [unfold is_bit_set; rewrite Z.abs_eq by lia; reflexivity|].
  rewrite <- seq_shift, map_map. apply map_ext. intros i.
  replace (c / 2) with (Z.div2 c) by (rewrite Z.div2_div; reflexivity). rewrite Z.div2_spec. rewrite Z.shiftr_spec by lia. f_equal. lia.
Qed.

Lemma lshift_ok a k : 0 <= k -> bn_lshift a k = Ok (a * 2 ^ k).
Proof. intros H. unfold bn_lshift. destruct (Z.ltb_spec k 0); [lia|reflexivity]. Qed.
Lemma rand_ok b raw : 0 < b -> generate_rand_less_than b raw = Ok (raw mod b).
Proof. intros H. unfold generate_rand_less_than. destruct (Z.leb_spec b 0); [lia|reflexivity]. Qed.

Lemma random_oracle_range hl H x m c : 0 < hl -> 0 < m -> random_oracle hl H x m = Ok c -> 0 <= c < m.
Proof.
  intros Hh Hm E. destruct (random_oracle_total hl H x m Hh Hm) as [T1 T2].
  match goal with T1 : ?a < ?b -> _ |- _ => destruct (Z_lt_le_dec a b) as [D|D] end.
  - destruct (T1 D) as (r & Er & Hr). rewrite Er in E. injection E as <-. exact Hr.
  - rewrite (T2 D) in E. discriminate.
Qed.

Lemma gen_challenge_inv sha g h n ds reps cs : 0 < reps -> gen_challenge sha g h n ds reps = Ok cs ->
  exists b c, gen_bytes g h n ds = Ok b /\ random_oracle 512 sha b (2 ^ reps) = Ok c /\ 0 <= c < 2 ^ reps /\
    cs = map (fun i => Z.testbit c (Z.of_nat i)) (seq 0 (Z.to_nat reps)).
Proof.
  intros Hr E. unfold gen_challenge in E. destruct (gen_bytes g h n ds) as [b|?| | |]; try discriminate. cbn [bind] in E.
  rewrite lshift_ok, Z.mul_1_l in E by lia. cbn [bind] in E.
  destruct (random_oracle 512 sha b (2 ^ reps)) as [c|?| | |] eqn:Ec; try discriminate. cbn [bind] in E.
  assert (Hc : 0 <= c < 2 ^ reps) by (apply (random_oracle_range 512 sha b); [lia|apply Z.pow_pos_nonneg; lia|exact Ec]).
  rewrite challenge_bits_ok in E by lia. exists b, c. split; [reflexivity|]. split; [exact Ec|]. split; [exact Hc|]. congruence.
Qed.
Lemma gen_challenge_ok sha g h n ds reps b c : 0 < reps -> gen_bytes g h n ds = Ok b -> random_oracle 512 sha b (2 ^ reps) = Ok c ->
  gen_challenge sha g h n ds reps = Ok (map (fun i => Z.testbit c (Z.of_nat i)) (seq 0 (Z.to_nat reps))).
Proof.
  intros Hr Eb Ec. unfold gen_challenge. rewrite Eb. cbn [bind]. rewrite lshift_ok, Z.mul_1_l by lia. cbn [bind]. rewrite Ec. cbn [bind].
  apply challenge_bits_ok. apply random_oracle_range in Ec; [lia|lia|apply Z.pow_pos_nonneg; lia].
Qed.

(** One repetition of the verification. *)
Definition rep_ok (g h n : Z) (c : bool) (d z : Z) : Prop :=
  0 < n /\ 0 <= z /\ h ^ z mod n = (if c then (d * g) mod n else d).

Lemma mod_exp_inv a e m v : bn_mod_exp a e m = Ok v -> 0 < m /\ 0 <= e /\ v = a ^ e mod m.
Proof.
  intros E. destruct (Z_lt_le_dec 0 m) as [Hm|Hm], (Z_lt_le_dec e 0) as [He|He].
  - exfalso. unfold bn_mod_exp in E. destruct (Z.ltb_spec e 0); [discriminate|lia].
  - rewrite bn_mod_exp_ok in E by assumption. injection E as <-. tauto.
  - exfalso. unfold bn_mod_exp in E. destruct (Z.ltb_spec e 0); [discriminate|lia].
  - exfalso. unfold bn_mod_exp in E. destruct (Z.ltb_spec e 0); [lia|]. destruct (Z.leb_spec m 0); [discriminate|lia].
Qed.

Lemma check_responses_iff g h n cs ds zs : length cs = length ds -> length cs = length zs ->
  (check_responses g h n cs ds zs = Ok tt <->
   forall i, (i < length cs)%nat -> rep_ok g h n (nth i cs false) (nth i ds 0) (nth i zs 0)).
Proof.
  revert ds zs. induction cs as [|c cs IH]; intros [|d ds] [|z zs] L1 L2; try discriminate; [split; [intros _ i Hi; cbn in Hi; lia|reflexivity]|].
  cbn [length] in L1, L2. specialize (IH ds zs ltac:(lia) ltac:(lia)). cbn [check_responses]. split.
  - intros E i Hi.
    destruct (if c then bn_mod_mul d g n else Ok d) as [ex|?| | |] eqn:Ee; try discriminate. cbn [bind] in E.
    destruct (bn_mod_exp h z n) as [v|?| | |] eqn:Ev; try discriminate. cbn [bind] in E. apply mod_exp_inv in Ev. destruct Ev as (Hn & Hz & ->).
    destruct (Z.eqb_spec (h ^ z mod n) ex) as [He|]; [|discriminate]. cbn [negb] in E. destruct i as [|i]; cbn [nth].
    + split; [exact Hn|]. split; [exact Hz|]. rewrite He. destruct c; [rewrite bn_mod_mul_ok in Ee by exact Hn|]; congruence.
    + apply (proj1 IH E). cbn [length] in Hi. lia.
  - intros H. destruct (H 0%nat ltac:(cbn; lia)) as (Hn & Hz & He). cbn [nth] in *.
    replace (if c then bn_mod_mul d g n else Ok d) with (Ok (h ^ z mod n)) by (rewrite He; destruct c; [rewrite bn_mod_mul_ok by exact Hn|]; reflexivity).
    cbn [bind]. rewrite bn_mod_exp_ok by assumption. cbn [bind]. rewrite Z.eqb_refl. cbn [negb]. apply IH. intros i Hi.
    apply (H (S i)). cbn [length]. lia.
Qed.

Lemma gen_dummies_ok h n bits raws : 0 < n -> 0 <= bits ->
  gen_dummies h n bits raws = Ok (map (fun raw => raw mod (n * 2 ^ bits)) raws, map (fun raw => h ^ (raw mod (n * 2 ^ bits)) mod n) raws).
Proof.
  intros Hn Hb. assert (0 < 2 ^ bits) by (apply Z.pow_pos_nonneg; lia). assert (0 < n * 2 ^ bits) by nia.
  induction raws as [|raw raws IH]; [reflexivity|]. cbn [gen_dummies]. rewrite lshift_ok by assumption. cbn [bind]. rewrite rand_ok by assumption. cbn [bind].
  rewrite bn_mod_exp_ok; [|apply Z.mod_pos_bound; assumption|assumption]. cbn [bind]. rewrite IH. reflexivity.
Qed.

Lemma nth_map {A B} (f : A -> B) l i d e : (i < length l)%nat -> nth i (map f l) e = f (nth i l d).
Proof. revert i. induction l as [|a l IH]; intros [|i] Hi; cbn in *; try lia; [reflexivity|apply IH; lia]. Qed.

Lemma nth_combine_map {A B C} (f : A * B -> C) xs ys i a b c : (i < length xs)%nat -> (i < length ys)%nat ->
  nth i (map f (combine xs ys)) c = f (nth i xs a, nth i ys b).
Proof.
  revert ys i. induction xs as [|x xs IH]; intros [|y ys] [|i] H1 H2; cbn in *; try lia; [reflexivity|apply IH; lia].
Qed.

Lemma gen_bytes_ok g h n ds : 0 <= g -> 0 <= h -> 0 <= n -> Forall (fun d => 0 <= d) ds -> exists b, gen_bytes g h n ds = Ok b.
Proof.
  intros Hg Hh Hn Hd. unfold gen_bytes.
  destruct (to_bytes_of g Hg) as (? & -> & _), (to_bytes_of h Hh) as (? & -> & _), (to_bytes_of n Hn) as (? & -> & _). cbn [bind].
  destruct (mapM_to_bytes ds Hd) as (? & -> & _). cbn [bind]. eexists. reflexivity.
Qed.

Lemma coprime_pow_gcd h n k : 0 <= k -> Z.gcd h n = 1 -> Z.gcd (h ^ k) n = 1.
Proof.
  intros Hk G. apply Zgcd_1_rel_prime. apply rel_prime_sym, rel_prime_Zpower_r; [exact Hk|]. apply rel_prime_sym. apply Zgcd_1_rel_prime. exact G.
Qed.

(** h^a = g h^b with h a unit: a - b is a discrete logarithm. *)
Lemma dlog_intro n h g a b : 0 < n -> Z.gcd h n = 1 -> 0 <= a -> 0 <= b -> eqmod n (h ^ a) (g * h ^ b) -> discrete_log n h g (a - b).
Proof.
  intros Hn G Ha Hb E. unfold discrete_log. destruct (Z.leb_spec 0 (a - b)) as [H|H].
  - apply eqmod_eq; [exact Hn|]. apply (eqmod_cancel n (h ^ b)); [apply coprime_pow_gcd; assumption|].
    rewrite <- Z.pow_add_r by lia. replace (b + (a - b)) with a by lia. rewrite E. rewrite Z.mul_comm. reflexivity.
  - apply eqmod_eq; [exact Hn|]. apply (eqmod_cancel n (h ^ a)); [apply coprime_pow_gcd; assumption|].
    replace (h ^ a * (g * h ^ (- (a - b)))) with (g * (h ^ a * h ^ (- (a - b)))) by lia.
    rewrite <- Z.pow_add_r by lia. replace (a + - (a - b)) with b by lia. rewrite <- E. rewrite Z.mul_1_r. reflexivity.
Qed.

Lemma eqmod_one_pow m a k : eqmod m a 1 -> eqmod m (a ^ k) 1 \/ k < 0.
Proof. intros H. destruct (Z_lt_le_dec k 0); [right; assumption|left]. rewrite H. rewrite Z.pow_1_l by assumption. reflexivity. Qed.

(** From h^a = g^b, and E an exponent of h and g coprime to b, a logarithm of g. *)
Lemma root_extract n h g a b E : 0 < n -> 0 < E -> 0 <= a -> Z.gcd b E = 1 -> 0 <= b ->
  eqmod n (g ^ E) 1 -> eqmod n (h ^ a) (g ^ b) -> exists x, 0 <= x /\ eqmod n (h ^ x) g.
Proof.
  intros Hn HE Ha G Hb Hg H. destruct (Z.gcd_bezout b E 1 G) as (u & v & Huv).
  set (u' := u mod E). assert (Hu : 0 <= u' < E) by (apply Z.mod_pos_bound; exact HE).
  exists (a * u'). split; [nia|].
  rewrite Z.pow_mul_r by lia. rewrite H. rewrite <- Z.pow_mul_r by lia.
  assert (Hk : exists k, b * u' = 1 + E * k).
  { exists (- v - (u / E) * b). unfold u'. rewrite Z.mod_eq by lia. nia. }
  destruct Hk as (k & Hk). destruct (Z_lt_le_dec k 0) as [Hneg|Hpos].
  - (* only E = 1, or b u' = 0 with E = 1 *)
    assert (E = 1 /\ k = -1) as [-> ->] by nia. rewrite Hk. replace (1 + 1 * -1) with 0 by lia. rewrite Z.pow_0_r. rewrite Z.pow_1_r in Hg. symmetry. exact Hg.
  - rewrite Hk. rewrite Z.pow_add_r by nia. rewrite Z.pow_1_r. rewrite Z.pow_mul_r by lia.
    destruct (eqmod_one_pow n (g ^ E) k Hg) as [->|]; [|lia]. rewrite Z.mul_1_r. reflexivity.
Qed.

Lemma full_turn n a k E : 0 <= k -> 0 < E -> eqmod n (a ^ E) 1 -> eqmod n (a ^ k * a ^ (k * (E - 1))) 1.
Proof.
  intros Hk HE H. assert (0 <= k * (E - 1)) by nia. rewrite <- Z.pow_add_r by assumption. replace (k + k * (E - 1)) with (E * k) by lia. rewrite Z.pow_mul_r by lia.
  destruct (eqmod_one_pow n (a ^ E) k H); [assumption|lia].
Qed.
(** Dividing by raising to E - 1. *)
Lemma cross_divide n h g z1 z2 c1 c2 E : 0 <= z1 -> 0 <= z2 -> 0 <= c1 -> 0 <= c2 -> 0 < E -> eqmod n (h ^ E) 1 -> eqmod n (g ^ E) 1 ->
  eqmod n (h ^ z1 * g ^ c2) (h ^ z2 * g ^ c1) -> eqmod n (h ^ (z1 + z2 * (E - 1))) (g ^ (c1 + c2 * (E - 1))).
Proof.
  intros A1 A2 A3 A4 HE Hh Hg Hc. pose proof (full_turn n h z2 E A2 HE Hh) as Th. pose proof (full_turn n g c2 E A4 HE Hg) as Tg.
  assert (0 <= z2 * (E - 1)) by (apply Z.mul_nonneg_nonneg; lia). assert (0 <= c2 * (E - 1)) by (apply Z.mul_nonneg_nonneg; lia). rewrite !Z.pow_add_r by assumption.
  generalize dependent (h ^ (z2 * (E - 1))). intros hz Th. generalize dependent (g ^ (c2 * (E - 1))). intros gc Tg.
  revert Th Tg Hc. generalize (h ^ z1) (h ^ z2) (g ^ c1) (g ^ c2). intros a b c d Th Tg Hc.
  transitivity (a * hz * (d * gc)); [rewrite Tg, Z.mul_1_r; reflexivity|].
  replace (a * hz * (d * gc)) with ((a * d) * (hz * gc)) by ring. rewrite Hc. replace (b * c * (hz * gc)) with ((b * hz) * (c * gc)) by ring.
  rewrite Th, Z.mul_1_l. reflexivity.
Qed.
