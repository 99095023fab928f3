(** Lemmas about the first message of the request proof: it is a linear function of the values it is computed from. *)
From Coq Require Import Znumtheory.
From Verif Require Import Base M_BigNum L_BigNum M_Num L_Mod L_Num L_NT M_DJ L_DJ M_Paillier L_Paillier L_PaillierKey M_EC M_Proto M_CS S_CS L_CS
  M_Simul M_Pedersen M_Wire M_VRF M_BB L_BBct L_BBhom S_Exp S_Pedersen L_Exp L_Protocol L_Pedersen L_VRF.

(** ** Products of powers *)
Lemma multi_exp_zeros gs k : multi_exp gs (repeat 0 k) = 1.
Proof. revert k. induction gs as [|g gs IH]; intros [|k]; cbn; try reflexivity. rewrite IH. reflexivity. Qed.
Lemma slot_nth len i v j : nth j (slot len i v) 0 = if (j =? i)%nat && (j <? len)%nat then v else 0.
Proof. unfold slot. rewrite seq_map_nth. destruct (j <? len)%nat, (j =? i)%nat; reflexivity. Qed.
Lemma slot_len len i v : length (slot len i v) = len. Proof. unfold slot. rewrite map_length, seq_length. reflexivity. Qed.
Lemma slot_nonneg len i v : 0 <= v -> nonneg (slot len i v).
Proof. intros H. unfold slot, nonneg. apply Forall_forall. intros x Hx. apply in_map_iff in Hx. destruct Hx as (j & <- & _). destruct (j =? i)%nat; lia. Qed.
Lemma slot_mask len i d w c : slot len i (d + c * w) = vadd (slot len i d) (vscale c (slot len i w)).
Proof.
  unfold slot, vscale. rewrite map_map. generalize (seq 0 len) as js. induction js as [|j js IH]; [reflexivity|]. cbn [map vadd]. rewrite IH. f_equal. destruct (j =? i)%nat; lia.
Qed.

(** The product of the commitments in single slots. *)
Lemma slots_product pp (as_ os es : list Z) k : length as_ = k -> length os = k -> length es = k -> (k <= length (pp_gs pp))%nat -> nonneg as_ -> nonneg os -> nonneg es ->
  multi_exp (tab k (fun i => raw_commit pp (slot (length (pp_gs pp)) i (nth i as_ 0)) (nth i os 0))) es = raw_commit pp (map2 Z.mul es as_) (dot 0 os es).
Proof.
  intros La Lo Le Hk Ha Ho He. set (G := length (pp_gs pp)).
  assert (K : forall j, (j <= k)%nat -> multi_exp (tab j (fun i => raw_commit pp (slot G i (nth i as_ 0)) (nth i os 0))) (firstn j es) =
    raw_commit pp (map (fun i => if (i <? j)%nat then nth i es 0 * nth i as_ 0 else 0) (seq 0 G)) (dot 0 (firstn j os) (firstn j es))).
  { assert (dot_app : forall a b x y acc, length a = length b -> dot acc (a ++ [x]) (b ++ [y]) = dot acc a b + x * y).
    { induction a as [|p a IH]; intros [|r b] x y acc H; cbn in *; try lia. apply IH. lia. }
    assert (dot_nonneg : forall a b acc, 0 <= acc -> nonneg a -> nonneg b -> 0 <= dot acc a b).
    { induction a as [|p a IH]; intros [|r b] acc Hacc HA HB; cbn; try assumption. inversion HA; inversion HB; subst. apply IH; try assumption.
      pose proof (Z.mul_nonneg_nonneg p r). lia. }
    assert (me_app : forall gs hs xs ys, length gs = length xs -> multi_exp (gs ++ hs) (xs ++ ys) = multi_exp gs xs * multi_exp hs ys).
    { induction gs as [|g gs IH]; intros hs [|x xs] ys H; cbn [app multi_exp length] in *; try lia. rewrite IH by lia. ring. }
    assert (fS : forall (l : list Z) j, (j < length l)%nat -> firstn (S j) l = firstn j l ++ [nth j l 0]).
    { induction l as [|x l IH]; intros j Hj; cbn in Hj; [lia|]. destruct j; [reflexivity|]. cbn [firstn app nth]. rewrite <- IH by lia. reflexivity. }
    assert (ff : forall (l : list Z) j, nonneg l -> nonneg (firstn j l)).
    { intros l j H. unfold nonneg in *. rewrite Forall_forall in *. intros x Hx. apply H. rewrite <- (firstn_skipn j l). apply in_or_app. left. exact Hx. }
    induction j as [|j IH]; intros Hj.
    - cbn [firstn dot]. unfold raw_commit. rewrite Z.pow_0_r, Z.mul_1_r. symmetry.
      assert (E : map (fun i => if (i <? 0)%nat then nth i es 0 * nth i as_ 0 else 0) (seq 0 G) = repeat 0 G).
      { assert (H : forall a k, map (fun i => if (i <? 0)%nat then nth i es 0 * nth i as_ 0 else 0) (seq a k) = repeat 0 k).
        { intros a z. revert a. induction z as [|z IHz]; intros a; [reflexivity|]. cbn [seq map repeat]. rewrite IHz. reflexivity. } apply H. }
      rewrite E. apply multi_exp_zeros.
    - unfold tab. rewrite seq_S, map_app. cbn [map Nat.add]. rewrite fS by lia. change (map ?f (seq 0 j)) with (tab j f).
      rewrite me_app by (rewrite tab_len, firstn_length; lia). rewrite IH by lia. cbn [multi_exp]. rewrite Z.mul_1_r.
      rewrite fS, dot_app by (rewrite ?firstn_length; lia).
      rewrite <- (raw_commit_scale pp) by (first [apply slot_nonneg, nonneg_nth; exact Ha|apply nonneg_nth; assumption]).
      assert (Hd : 0 <= dot 0 (firstn j os) (firstn j es)) by (apply dot_nonneg; [lia|apply ff; exact Ho|apply ff; exact He]).
      pose proof (nonneg_nth es j He) as He'. pose proof (nonneg_nth os j Ho) as Ho'. pose proof (nonneg_nth as_ j Ha) as Ha'.
      rewrite <- raw_commit_add.
      + f_equal; [|ring]. unfold vscale, slot. rewrite map_map.
        assert (F : forall js, (forall i, In i js -> True) -> vadd (map (fun i => if (i <? j)%nat then nth i es 0 * nth i as_ 0 else 0) js)
          (map (fun i => nth j es 0 * (if (i =? j)%nat then nth j as_ 0 else 0)) js) = map (fun i => if (i <? S j)%nat then nth i es 0 * nth i as_ 0 else 0) js).
        { clear. induction js as [|i js IH]; intros _; [reflexivity|]. cbn [map vadd]. rewrite IH by trivial. f_equal.
          destruct (Nat.eqb_spec i j) as [->|Hne].
          - destruct (Nat.ltb_spec j j); [lia|]. destruct (Nat.ltb_spec j (S j)); [|lia]. lia.
          - destruct (Nat.ltb_spec i j), (Nat.ltb_spec i (S j)); lia. }
        apply F. trivial.
      + unfold nonneg. apply Forall_forall. intros x Hx. apply in_map_iff in Hx. destruct Hx as (i & <- & _). pose proof (nonneg_nth es i He). pose proof (nonneg_nth as_ i Ha).
        destruct (i <? j)%nat; [apply Z.mul_nonneg_nonneg; assumption|lia].
      + apply nonneg_vscale; [exact He'|apply slot_nonneg; exact Ha'].
      + exact Hd.
      + apply Z.mul_nonneg_nonneg; assumption. }
  specialize (K k ltac:(lia)). rewrite !firstn_all2 in K by lia. rewrite K. unfold raw_commit. f_equal.
  assert (Z1 : forall gs l z, multi_exp gs (l ++ repeat 0 z) = multi_exp gs l).
  { induction gs as [|g gs IH]; intros [|x l] z; cbn [app multi_exp]; try reflexivity.
    - destruct z; cbn [repeat multi_exp]; [reflexivity|]. rewrite multi_exp_zeros. reflexivity.
    - rewrite IH. reflexivity. }
  rewrite <- (Z1 _ (map2 Z.mul es as_) (G - k)%nat). f_equal. apply (nth_ext _ _ 0 0).
  - rewrite map_length, seq_length, app_length, repeat_length, map2_len by lia. fold G in Hk. lia.
  - intros i Hi. rewrite map_length, seq_length in Hi. rewrite seq_map_nth. destruct (Nat.ltb_spec i G) as [_|]; [|lia].
    destruct (Nat.ltb_spec i k) as [Hik|Hik].
    + rewrite app_nth1 by (rewrite map2_len; lia). rewrite map2_nth by (try reflexivity; lia). reflexivity.
    + rewrite app_nth2 by (rewrite map2_len; lia). rewrite repeat_nth. destruct (_ <? _)%nat; reflexivity.
Qed.

Lemma dot_acc os es : forall acc, dot acc os es = acc + dot 0 os es.
Proof. revert es. induction os as [|o os IH]; intros [|e es] acc; cbn [dot]; try lia. rewrite IH, (IH es (0 + o * e)). lia. Qed.
Lemma dot_nonneg os es : nonneg os -> nonneg es -> 0 <= dot 0 os es.
Proof.
  intros HA. revert es. induction HA as [|o os Ho HA IH]; intros es HB; cbn [dot]; [lia|]. destruct HB as [|e es He HB]; [lia|]. rewrite dot_acc. specialize (IH es HB).
  pose proof (Z.mul_nonneg_nonneg o e). lia.
Qed.
Lemma multi_exp_eqmod m gs hs es : Forall2 (eqmod m) gs hs -> nonneg es -> eqmod m (multi_exp gs es) (multi_exp hs es).
Proof.
  intros H. revert es. induction H as [|g h gs hs E H IH]; intros [|e es] He; cbn [multi_exp]; try reflexivity. inversion He; subst. rewrite IH by assumption.
  rewrite (eqmod_pow m g h e) by assumption. reflexivity.
Qed.

(** ** The first message as a function of the values *)
Section First.
Variable flag : bool.
Variable C : ec.
Variable b : bb C.
Variables (n : Z) (s : nat) (xs : list Z).
Notation cs := (bb_cs C b).
Hypothesis W : cs_valid n s cs.
Hypothesis Hg : Z.gcd (cs_g cs) n = 1.
Hypothesis Hk : key_match n s (cs_g cs) xs (cs_ys cs).
Notation len := (cs_len cs).
Notation E := (enc n s cs xs).
Hypothesis Hlen : (0 < len)%nat.
Variables (rk ry : nat -> Z) (k y : Z).
Hypothesis Hrk : forall j, 0 <= rk j.
Hypothesis Hry : forall j, 0 <= ry j.
Hypothesis Hk0 : 0 <= k.
Hypothesis Hy0 : 0 <= y.
Notation ped := (bb_ped C b).
Notation pp := (pd_par ped).
Notation N := (pp_n pp).
Notation G := (length (pp_gs pp)).
Notation q := (ec_order C).
Hypothesis PO : ped_ok ped.
Hypothesis UN : units pp.
Hypothesis Hq : 0 < q.

Definition com (ms : list Z) (r : Z) : Z := raw_commit pp ms r mod N.
Definition hidden (v : req_values) : list Z := map2 (fun al x => al + x * q) (v_alphas v) (v_bs v).
Definition first_of (cas : list Z) (v : req_values) : req_first :=
  {| f_messages := com (v_messages v) (v_messages_open v); f_rs := com (v_rs v) (v_rs_open v);
     f_as := tab (length (v_messages v)) (fun i => com (slot G i (nth i (v_as v) 0)) (nth i (v_as_open v) 0));
     f_bs := com (v_bs v) (v_bs_open v);
     f_alphas_1 := com (v_alphas v) (v_alphas_1 v); f_alphas_2 := (pp_h pp ^ v_alphas_2 v * multi_exp cas (v_messages v)) mod N;
     f_gammas_1 := com (v_gammas v) (v_gammas_1 v); f_gammas_2 := (pp_h pp ^ v_gammas_2 v * multi_exp cas (v_rs v)) mod N;
     f_cts := tab (num_cts len (length (v_messages v))) (fun i => E (hr C b rk ry (v_as v) (v_gammas v) (v_enc v) i) (hf C b k y (hidden v) (v_as v) (v_gammas v) i)) |}.

Record shaped (m : nat) (v : req_values) : Prop := {
  z_m : length (v_messages v) = m; z_r : length (v_rs v) = m; z_a : length (v_as v) = m; z_ao : length (v_as_open v) = m; z_b : length (v_bs v) = m;
  z_al : length (v_alphas v) = m; z_ga : length (v_gammas v) = m; z_e : length (v_enc v) = num_cts len m;
  y_m : nonneg (v_messages v); y_r : nonneg (v_rs v); y_a : nonneg (v_as v); y_ao : nonneg (v_as_open v); y_b : nonneg (v_bs v);
  y_al : nonneg (v_alphas v); y_ga : nonneg (v_gammas v); y_e : nonneg (v_enc v);
  y_mo : 0 <= v_messages_open v; y_ro : 0 <= v_rs_open v; y_bo : 0 <= v_bs_open v; y_al1 : 0 <= v_alphas_1 v; y_al2 : 0 <= v_alphas_2 v;
  y_ga1 : 0 <= v_gammas_1 v; y_ga2 : 0 <= v_gammas_2 v }.

Lemma N1 : 1 < N. Proof. apply PO. Qed.
Lemma com_ok ms r : (length ms <= G)%nat -> nonneg ms -> 0 <= r -> ped_commit_with_rand ped ms r = Ok (com ms r).
Proof. intros H1 H2 H3. apply commit_ok; [exact PO|]. split; [exact H1|]. split; assumption. Qed.
Lemma com_range ms r : 0 <= com ms r < N. Proof. apply Z.mod_pos_bound. pose proof N1. lia. Qed.
Lemma commit_each_ok as_ os m : length as_ = m -> length os = m -> nonneg as_ -> nonneg os ->
  commit_each C b as_ os m = Ok (tab m (fun i => com (slot G i (nth i as_ 0)) (nth i os 0))).
Proof.
  intros La Lo Ha Ho. apply mapM_seq. intros i Hi. rewrite (at_index_ok as_), (at_index_ok os) by lia. cbn [bind].
  apply com_ok; [rewrite slot_len; lia|apply slot_nonneg, nonneg_nth; exact Ha|apply nonneg_nth; exact Ho].
Qed.
Lemma accumulate_ok : forall cas es acc, 0 <= acc < N -> nonneg es ->
  accumulate C b acc cas es = Ok ((acc * multi_exp cas es) mod N) /\ accumulate_verify C b acc cas es = Ok ((acc * multi_exp cas es) mod N).
Proof.
  pose proof N1 as HN. induction cas as [|c cas IH]; intros es acc Ha He.
  - cbn [accumulate accumulate_verify multi_exp]. rewrite Z.mul_1_r, Z.mod_small by exact Ha. split; reflexivity.
  - destruct He as [|e es He Hes].
    + cbn [accumulate accumulate_verify multi_exp]. rewrite Z.mul_1_r, Z.mod_small by exact Ha. split; reflexivity.
    + cbn [accumulate accumulate_verify multi_exp]. unfold ped_multiply, ped_add. rewrite bn_mod_exp_ok by lia. cbn [bind]. rewrite !bn_mod_mul_ok by lia. cbn [bind].
      assert (B : forall z, 0 <= z mod N < N) by (intros; apply Z.mod_pos_bound; lia).
      destruct (IH es ((acc * (c ^ e mod N)) mod N) (B _) Hes) as [I1 _]. destruct (IH es (((c ^ e mod N) * acc) mod N) (B _) Hes) as [_ I2]. rewrite I1, I2.
      split; f_equal; apply eqmod_eq; try lia; rewrite !(eqmod_mod N); exists 0; ring.
Qed.
Lemma zero_com r : 0 <= r -> ped_commit_with_rand ped (repeat 0 G) r = Ok (pp_h pp ^ r mod N).
Proof.
  intros Hr. rewrite com_ok; [|rewrite repeat_length; lia|apply nonneg_repeat; lia|exact Hr]. unfold com, raw_commit. rewrite multi_exp_zeros, Z.mul_1_l. reflexivity.
Qed.
Lemma hidden_len m v : shaped m v -> length (hidden v) = m.
Proof. intros Z1. unfold hidden. rewrite map2_len; [apply Z1|]. rewrite (z_al m v Z1), (z_b m v Z1). reflexivity. Qed.
Lemma hidden_nonneg m v : shaped m v -> nonneg (hidden v).
Proof. intros Z1. apply nonneg_map2; [|apply Z1..]. intros a c Ha Hc. pose proof (Z.mul_nonneg_nonneg c q). lia. Qed.

Variable keys : list (cs_ciphertext * cs_ciphertext).
Hypothesis K1 : map fst keys = key_cts C b n s xs rk k.
Hypothesis K2 : map snd keys = key_cts C b n s xs ry y.

Lemma cts_ok m v : shaped m v -> Forall (rnd_ok n) (v_enc v) ->
  homomorphic_cts flag C b (hidden v) (v_as v) (v_gammas v) (v_enc v) (map fst keys) (map snd keys) = Ok (f_cts (first_of [] v)).
Proof.
  intros Z1 Hr. rewrite K1, K2. pose proof (hidden_len m v Z1) as Lh. pose proof (hidden_nonneg m v Z1) as Nh. destruct Z1.
  rewrite (homomorphic_ok flag C b n s xs W Hg Hk Hlen rk ry k y Hrk Hry Hk0 Hy0) by (first [congruence|assumption]). cbn [first_of f_cts]. rewrite Lh, z_m0. reflexivity.
Qed.
Lemma cts_rejects m v : shaped m v -> ~ Forall (rnd_ok n) (v_enc v) ->
  homomorphic_cts flag C b (hidden v) (v_as v) (v_gammas v) (v_enc v) (map fst keys) (map snd keys) = Err InvalidArgument.
Proof.
  intros Z1 Hr. rewrite K1, K2. pose proof (hidden_len m v Z1) as Lh. pose proof (hidden_nonneg m v Z1) as Nh. destruct Z1.
  apply (homomorphic_rejects flag C b n s xs W Hg Hk Hlen rk ry k y Hrk Hry Hk0 Hy0); first [congruence|assumption].
Qed.

Lemma composites_ok m cas v : shaped m v -> (m <= G)%nat -> Forall (rnd_ok n) (v_enc v) -> composites flag C b cas keys v = Ok (first_of cas v).
Proof.
  intros Z1 Hm Hr. pose proof (cts_ok m v Z1 Hr) as EC. unfold hidden in EC. pose proof N1 as HN. unfold composites. destruct Z1.
  rewrite !zero_com by assumption. rewrite !com_ok by (first [assumption|lia]). cbn [bind]. rewrite (commit_each_ok _ _ (length (v_messages v))) by (first [assumption|congruence]). cbn [bind].
  rewrite (proj1 (accumulate_ok cas (v_messages v) _ (Z.mod_pos_bound (pp_h pp ^ v_alphas_2 v) N ltac:(lia)) y_m0)). cbn [bind].
  rewrite (proj1 (accumulate_ok cas (v_rs v) _ (Z.mod_pos_bound (pp_h pp ^ v_gammas_2 v) N ltac:(lia)) y_r0)). cbn [bind].
  rewrite EC. cbn [bind]. unfold first_of. do 2 f_equal; apply eqmod_eq; try lia; rewrite (eqmod_mod N); reflexivity.
Qed.
Lemma composites_rejects m cas v : shaped m v -> (m <= G)%nat -> ~ Forall (rnd_ok n) (v_enc v) -> composites flag C b cas keys v = Err InvalidArgument.
Proof.
  intros Z1 Hm Hr. pose proof (cts_rejects m v Z1 Hr) as EC. unfold hidden in EC. pose proof N1 as HN. unfold composites. destruct Z1.
  rewrite !zero_com by assumption. rewrite !com_ok by (first [assumption|lia]). cbn [bind]. rewrite (commit_each_ok _ _ (length (v_messages v))) by (first [assumption|congruence]). cbn [bind].
  rewrite (proj1 (accumulate_ok cas (v_messages v) _ (Z.mod_pos_bound (pp_h pp ^ v_alphas_2 v) N ltac:(lia)) y_m0)). cbn [bind].
  rewrite (proj1 (accumulate_ok cas (v_rs v) _ (Z.mod_pos_bound (pp_h pp ^ v_gammas_2 v) N ltac:(lia)) y_r0)). cbn [bind].
  rewrite EC. reflexivity.
Qed.
Lemma masked_composites_ok pk m cas v : parse_public C b pk = Ok keys -> shaped m v -> length cas = m -> (m <= G)%nat -> Forall (rnd_ok n) (v_enc v) ->
  masked_composites flag C b cas pk v = Ok (first_of cas v).
Proof.
  intros EP Z1 Lc Hm Hr. pose proof (cts_ok m v Z1 Hr) as EC. unfold hidden in EC. pose proof N1 as HN. unfold masked_composites. destruct Z1.
  rewrite !zero_com by assumption. rewrite !com_ok by (first [assumption|lia]). cbn [bind]. rewrite (commit_each_ok _ _ (length cas)) by (first [assumption|congruence]). cbn [bind].
  rewrite (proj2 (accumulate_ok cas (v_messages v) _ (Z.mod_pos_bound (pp_h pp ^ v_alphas_2 v) N ltac:(lia)) y_m0)). cbn [bind].
  rewrite (proj2 (accumulate_ok cas (v_rs v) _ (Z.mod_pos_bound (pp_h pp ^ v_gammas_2 v) N ltac:(lia)) y_r0)). cbn [bind]. rewrite EP. cbn [bind].
  rewrite EC. cbn [bind]. unfold first_of. rewrite Lc, z_m0. do 2 f_equal; apply eqmod_eq; try lia; rewrite (eqmod_mod N); reflexivity.
Qed.
Lemma masked_composites_rejects pk m cas v : parse_public C b pk = Ok keys -> shaped m v -> length cas = m -> (m <= G)%nat -> ~ Forall (rnd_ok n) (v_enc v) ->
  masked_composites flag C b cas pk v = Err InvalidArgument.
Proof.
  intros EP Z1 Lc Hm Hr. pose proof (cts_rejects m v Z1 Hr) as EC. unfold hidden in EC. pose proof N1 as HN. unfold masked_composites. destruct Z1.
  rewrite !zero_com by assumption. rewrite !com_ok by (first [assumption|lia]). cbn [bind]. rewrite (commit_each_ok _ _ (length cas)) by (first [assumption|congruence]). cbn [bind].
  rewrite (proj2 (accumulate_ok cas (v_messages v) _ (Z.mod_pos_bound (pp_h pp ^ v_alphas_2 v) N ltac:(lia)) y_m0)). cbn [bind].
  rewrite (proj2 (accumulate_ok cas (v_rs v) _ (Z.mod_pos_bound (pp_h pp ^ v_gammas_2 v) N ltac:(lia)) y_r0)). cbn [bind]. rewrite EP. cbn [bind].
  rewrite EC. reflexivity.
Qed.

(** ** Unmasking *)
Lemma shaped_mask m c d w : 0 <= c -> shaped m d -> shaped m w -> shaped m (masked_values c d w).
Proof.
  intros Hc D V. assert (Hm : forall x z, 0 <= x -> 0 <= z -> 0 <= mask c x z) by (intros x z Hx Hz; unfold mask; pose proof (Z.mul_nonneg_nonneg c z); lia).
  destruct D, V. constructor; cbn; try (rewrite map2_len; congruence); try (apply nonneg_map2; assumption); apply Hm; assumption.
Qed.
Lemma power_inverse_ok X Y c : 0 <= c -> Z.gcd Y N = 1 -> exists i, power_inverse C b (Y mod N) c = Ok i /\ eqmod N (X * Y ^ c * i) X.
Proof.
  intros Hc HY. pose proof N1 as HN. unfold power_inverse, ped_multiply. rewrite bn_mod_exp_ok by lia. cbn [bind].
  destruct (inverse_mod N (Y ^ c) X HN (coprime_pow_gcd Y N c Hc HY)) as (i & Ei & _ & Pi). exists i. split; [|exact Pi].
  rewrite <- Ei. f_equal. apply eqmod_eq; [lia|]. apply eqmod_pow, eqmod_mod.
Qed.
Lemma ped_add_ok X i Z0 : eqmod N (X * i) Z0 -> ped_add ped (X mod N) i = Ok (Z0 mod N).
Proof. intros H. pose proof N1 as HN. unfold ped_add. rewrite bn_mod_mul_ok by lia. f_equal. apply eqmod_eq; [lia|]. rewrite (eqmod_mod N). exact H. Qed.
Lemma unmask_ok X Y c : 0 <= c -> Z.gcd Y N = 1 -> unmask C b ((X * Y ^ c) mod N) (Y mod N) c = Ok (X mod N).
Proof. intros Hc HY. unfold unmask. destruct (power_inverse_ok X Y c Hc HY) as (i & Ei & Pi). rewrite Ei. cbn [bind]. apply ped_add_ok. exact Pi. Qed.
Lemma raw_mask a e r o c : length a = length e -> nonneg a -> nonneg e -> 0 <= r -> 0 <= o -> 0 <= c ->
  raw_commit pp (map2 (mask c) a e) (mask c r o) = raw_commit pp a r * raw_commit pp e o ^ c.
Proof.
  intros L Ha He Hr Ho Hc. rewrite map2_mask by exact L. unfold mask. rewrite raw_commit_add.
  - rewrite raw_commit_scale by assumption. reflexivity.
  - exact Ha. - apply nonneg_vscale; assumption. - exact Hr. - apply Z.mul_nonneg_nonneg; assumption.
Qed.
Lemma unmask_com a e r o c : length a = length e -> nonneg a -> nonneg e -> 0 <= r -> 0 <= o -> 0 <= c ->
  unmask C b (com (map2 (mask c) a e) (mask c r o)) (com e o) c = Ok (com a r).
Proof. intros L Ha He Hr Ho Hc. unfold com. rewrite raw_mask by assumption. apply unmask_ok; [exact Hc|]. apply raw_commit_unit; assumption. Qed.
Lemma product_mask cas a e r o c : length a = length e -> nonneg a -> nonneg e -> 0 <= r -> 0 <= o -> 0 <= c ->
  pp_h pp ^ mask c r o * multi_exp cas (map2 (mask c) a e) = (pp_h pp ^ r * multi_exp cas a) * (pp_h pp ^ o * multi_exp cas e) ^ c.
Proof.
  intros L Ha He Hr Ho Hc. rewrite map2_mask by exact L. unfold mask. rewrite multi_exp_vadd, multi_exp_vscale by (try assumption; apply nonneg_vscale; assumption).
  rewrite Z.pow_add_r by (try assumption; apply Z.mul_nonneg_nonneg; assumption). rewrite Z.pow_mul_l, (Z.mul_comm c o), Z.pow_mul_r by assumption. ring.
Qed.
Lemma hr_mask m c d w i : shaped m d -> shaped m w ->
  hr C b rk ry (map2 (mask c) (v_as d) (v_as w)) (map2 (mask c) (v_gammas d) (v_gammas w)) (map2 (mask c) (v_enc d) (v_enc w)) i =
  hr C b rk ry (v_as d) (v_gammas d) (v_enc d) i + c * hr C b rk ry (v_as w) (v_gammas w) (v_enc w) i.
Proof.
  intros D V. destruct D, V. assert (M0 : mask c 0 0 = 0) by (unfold mask; lia). unfold hr.
  rewrite (sumz_ext _ _ (fun j => (nth (i * len + j) (v_as d) 0 * rk j + nth (i * len + j) (v_gammas d) 0 * ry j) +
    c * (nth (i * len + j) (v_as w) 0 * rk j + nth (i * len + j) (v_gammas w) 0 * ry j))).
  - rewrite sumz_lin, (map2_nth (mask c)) by (first [exact M0|congruence]). unfold mask. lia.
  - intros j _. rewrite !(map2_nth (mask c)) by (first [exact M0|congruence]). unfold mask. ring.
Qed.
Lemma hidden_nth m v i : shaped m v -> nth i (hidden v) 0 = nth i (v_alphas v) 0 + nth i (v_bs v) 0 * q.
Proof. intros D. destruct D. unfold hidden. rewrite map2_nth by (first [reflexivity|congruence]). reflexivity. Qed.
Lemma hf_mask m c d w i l : 0 <= c -> shaped m d -> shaped m w ->
  hf C b k y (hidden (masked_values c d w)) (map2 (mask c) (v_as d) (v_as w)) (map2 (mask c) (v_gammas d) (v_gammas w)) i l =
  hf C b k y (hidden d) (v_as d) (v_gammas d) i l + c * hf C b k y (hidden w) (v_as w) (v_gammas w) i l.
Proof.
  intros Hc D V. unfold hf. rewrite (hidden_nth m _ _ (shaped_mask m c d w Hc D V)), (hidden_nth m d _ D), (hidden_nth m w _ V). cbn [masked_values v_alphas v_bs].
  assert (M0 : mask c 0 0 = 0) by (unfold mask; lia). destruct D, V. rewrite !(map2_nth (mask c)) by (first [exact M0|congruence]). unfold mask. ring.
Qed.

Lemma unmask_all_ok m c cas d w : 0 <= c -> shaped m d -> shaped m w -> (m <= G)%nat ->
  f_as (first_of cas w) = cas -> f_alphas_1 (first_of cas w) = f_alphas_2 (first_of cas w) -> f_gammas_1 (first_of cas w) = f_gammas_2 (first_of cas w) ->
  unmask_all C b (first_of cas (masked_values c d w)) (f_messages (first_of cas w)) (f_rs (first_of cas w)) cas (f_bs (first_of cas w))
    (f_alphas_1 (first_of cas w)) (f_gammas_1 (first_of cas w)) (f_cts (first_of cas w)) c = Ok (first_of cas d).
Proof.
  intros Hc D V Hm Ea Eal Ega. pose proof N1 as HN.
  assert (Lc : length cas = m) by (rewrite <- Ea; cbn [first_of f_as]; rewrite tab_len; apply (z_m m w V)).
  assert (Uc : Forall (fun x => Z.gcd x N = 1) cas).
  { rewrite <- Ea. cbn [first_of f_as]. apply tab_Forall. intros i _. unfold com. apply (gcd_eqmod _ (raw_commit pp (slot G i (nth i (v_as w) 0)) (nth i (v_as_open w) 0))); [apply eqmod_mod|].
    apply raw_commit_unit; [exact UN|apply slot_nonneg, nonneg_nth, (y_a m w V)|apply nonneg_nth, (y_ao m w V)]. }
  assert (Up : forall r es, 0 <= r -> nonneg es -> Z.gcd (pp_h pp ^ r * multi_exp cas es) N = 1).
  { intros r es Hr He. apply gcd_mul_l; [apply coprime_pow_gcd; [exact Hr|apply UN]|apply multi_exp_unit; assumption]. }
  pose proof D as D'. pose proof V as V'. destruct D, V. unfold unmask_all.
  assert (U : unmask C b (f_messages (first_of cas (masked_values c d w))) (f_messages (first_of cas w)) c = Ok (f_messages (first_of cas d))) by (apply unmask_com; first [assumption|congruence]). rewrite U. clear U. cbn [bind].
  assert (U : unmask C b (f_rs (first_of cas (masked_values c d w))) (f_rs (first_of cas w)) c = Ok (f_rs (first_of cas d))) by (apply unmask_com; first [assumption|congruence]). rewrite U. clear U. cbn [bind].
  rewrite Lc. rewrite (mapM_seq _ (fun i => com (slot G i (nth i (v_as d) 0)) (nth i (v_as_open d) 0))).
  2: { intros i Hi. rewrite (at_index_ok cas) by lia. cbn [bind].
       assert (Ei : nth i cas 0 = com (slot G i (nth i (v_as w) 0)) (nth i (v_as_open w) 0)).
       { rewrite <- Ea. cbn [first_of f_as]. rewrite tab_nth, z_m1. destruct (Nat.ltb_spec i m); [reflexivity|lia]. }
       assert (Ef : at_index (f_as (first_of cas (masked_values c d w))) i = Ok (com (map2 (mask c) (slot G i (nth i (v_as d) 0)) (slot G i (nth i (v_as w) 0))) (mask c (nth i (v_as_open d) 0) (nth i (v_as_open w) 0)))).
       { apply at_index_some. cbn [first_of f_as masked_values v_messages v_as v_as_open]. rewrite tab_at by (rewrite map2_len by congruence; lia).
         rewrite !(map2_nth (mask c)) by (first [congruence|unfold mask; lia]). rewrite map2_mask by (rewrite !slot_len; reflexivity). unfold mask at 1. rewrite slot_mask. reflexivity. }
       rewrite Ef, Ei. cbn [bind]. apply unmask_com; [rewrite !slot_len; reflexivity|apply slot_nonneg, nonneg_nth; assumption..|apply nonneg_nth; assumption|apply nonneg_nth; assumption|exact Hc]. }
  cbn [bind].
  assert (U : unmask C b (f_bs (first_of cas (masked_values c d w))) (f_bs (first_of cas w)) c = Ok (f_bs (first_of cas d))) by (apply unmask_com; first [assumption|congruence]). rewrite U. clear U. cbn [bind].
  destruct (power_inverse_ok 1 (raw_commit pp (v_alphas w) (v_alphas_1 w)) c Hc (raw_commit_unit pp _ _ UN y_al5 y_al6)) as (ial & Ei & Pal).
  change (f_alphas_1 (first_of cas w)) with (com (v_alphas w) (v_alphas_1 w)). unfold com at 1. rewrite Ei. cbn [bind].
  assert (Pal2 : eqmod N ((pp_h pp ^ v_alphas_2 w * multi_exp cas (v_messages w)) ^ c * ial) 1).
  { rewrite <- Pal, Z.mul_1_l. cbn [first_of f_alphas_1 f_alphas_2] in Eal. unfold com in Eal. apply mod_eqmod_iff in Eal; [|lia]. rewrite (eqmod_pow N _ _ c Eal). reflexivity. }
  assert (A1 : ped_add ped (f_alphas_1 (first_of cas (masked_values c d w))) ial = Ok (f_alphas_1 (first_of cas d))).
  { cbn [first_of f_alphas_1 masked_values v_alphas v_alphas_1]. unfold com. rewrite raw_mask by (first [assumption|congruence]). apply ped_add_ok.
    rewrite Z.mul_1_l in Pal. rewrite <- Z.mul_assoc, Pal, Z.mul_1_r. reflexivity. }
  assert (A2 : ped_add ped (f_alphas_2 (first_of cas (masked_values c d w))) ial = Ok (f_alphas_2 (first_of cas d))).
  { cbn [first_of f_alphas_2 masked_values v_messages v_alphas_2]. rewrite product_mask by (first [assumption|congruence]). apply ped_add_ok. rewrite <- Z.mul_assoc, Pal2, Z.mul_1_r. reflexivity. }
  rewrite A1. cbn [bind]. rewrite A2. cbn [bind].
  destruct (power_inverse_ok 1 (raw_commit pp (v_gammas w) (v_gammas_1 w)) c Hc (raw_commit_unit pp _ _ UN y_ga5 y_ga6)) as (iga & Ei2 & Pga).
  change (f_gammas_1 (first_of cas w)) with (com (v_gammas w) (v_gammas_1 w)). unfold com at 1. rewrite Ei2. cbn [bind].
  assert (Pga2 : eqmod N ((pp_h pp ^ v_gammas_2 w * multi_exp cas (v_rs w)) ^ c * iga) 1).
  { rewrite <- Pga, Z.mul_1_l. cbn [first_of f_gammas_1 f_gammas_2] in Ega. unfold com in Ega. apply mod_eqmod_iff in Ega; [|lia]. rewrite (eqmod_pow N _ _ c Ega). reflexivity. }
  assert (G1 : ped_add ped (f_gammas_1 (first_of cas (masked_values c d w))) iga = Ok (f_gammas_1 (first_of cas d))).
  { cbn [first_of f_gammas_1 masked_values v_gammas v_gammas_1]. unfold com. rewrite raw_mask by (first [assumption|congruence]). apply ped_add_ok.
    rewrite Z.mul_1_l in Pga. rewrite <- Z.mul_assoc, Pga, Z.mul_1_r. reflexivity. }
  assert (G2 : ped_add ped (f_gammas_2 (first_of cas (masked_values c d w))) iga = Ok (f_gammas_2 (first_of cas d))).
  { cbn [first_of f_gammas_2 masked_values v_rs v_gammas_2]. rewrite product_mask by (first [assumption|congruence]). apply ped_add_ok. rewrite <- Z.mul_assoc, Pga2, Z.mul_1_r. reflexivity. }
  rewrite G1. cbn [bind]. rewrite G2. cbn [bind].
  rewrite (mapM_seq _ (fun i => E (hr C b rk ry (v_as d) (v_gammas d) (v_enc d) i) (hf C b k y (hidden d) (v_as d) (v_gammas d) i))).
  - cbn [bind]. cbn [first_of f_cts]. rewrite tab_len. unfold first_of. rewrite z_m0, z_m1. reflexivity.
  - cbn [first_of f_cts]. rewrite tab_len. intros i Hi. rewrite z_m1 in Hi.
    rewrite (at_index_some _ i (E (hr C b rk ry (v_as d) (v_gammas d) (v_enc d) i + c * hr C b rk ry (v_as w) (v_gammas w) (v_enc w) i)
      (fun l => hf C b k y (hidden d) (v_as d) (v_gammas d) i l + c * hf C b k y (hidden w) (v_as w) (v_gammas w) i l))).
    2: { rewrite tab_at by (cbn [masked_values v_messages]; rewrite map2_len by congruence; rewrite z_m0; exact Hi). f_equal. apply enc_ext.
         - cbn [masked_values v_as v_gammas v_enc]. apply (hr_mask m); assumption.
         - intros l _. cbn [v_as v_gammas masked_values]. apply (hf_mask m); assumption. }
    cbn [bind]. rewrite (at_index_some _ i (E (hr C b rk ry (v_as w) (v_gammas w) (v_enc w) i) (hf C b k y (hidden w) (v_as w) (v_gammas w) i))).
    2: { rewrite tab_at by (rewrite z_m1; exact Hi). reflexivity. }
    cbn [bind]. apply (unmask_enc C b n s xs W Hg Hk Hlen).
    + apply hr_nonneg; assumption. + apply hr_nonneg; assumption. + exact Hc.
    + intros l. apply hf_nonneg; try assumption. apply (hidden_nonneg m). exact D'.
    + intros l. apply hf_nonneg; try assumption. apply (hidden_nonneg m). exact V'.
Qed.
End First.
