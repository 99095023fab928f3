(** Lemmas about provers who question the hash function: each new answer is the one that helps for at most one of its values. *)
From Verif Require Import Base M_BigNum S_BigNum L_BigNum L_BigNumP L_Mod M_Num S_Num L_Num S_Hide L_Hide S_Oracle.

(** At most one summand exceeds s. *)
Lemma zsum_one_large n f s cap : 0 <= s -> 0 <= cap -> (forall d, 0 <= d < Z.of_nat n -> f d <= cap) ->
  (forall d e, 0 <= d < Z.of_nat n -> 0 <= e < Z.of_nat n -> s < f d -> s < f e -> d = e) -> zsum n f <= cap + Z.of_nat n * s.
Proof.
  intros Hs Hc. induction n as [|n IH]; intros Hcap H1; cbn [zsum]; [lia|].
  destruct (Z_lt_le_dec s (f (Z.of_nat n))) as [Hl|Hl].
  - assert (zsum n f <= zsum n (fun _ => s)).
    { apply zsum_le. intros d Hd. destruct (Z_lt_le_dec s (f d)) as [Hd'|]; [|lia]. specialize (H1 d (Z.of_nat n) ltac:(lia) ltac:(lia) Hd' Hl). lia. }
    assert (zsum n (fun _ => s) <= Z.of_nat n * s) by (apply (zsum_bound n (fun _ => s) s); lia). specialize (Hcap (Z.of_nat n) ltac:(lia)). lia.
  - specialize (IH ltac:(intros; apply Hcap; lia) ltac:(intros; apply H1; lia)). lia.
Qed.
Lemma count_none bs test : (forall tape, Forall2 (fun b d => 0 <= d < b) bs tape -> test tape = false) -> count bs test = 0.
Proof.
  revert test. induction bs as [|b bs IH]; intros test H; cbn [count]; [rewrite H by constructor; reflexivity|].
  rewrite (zsum_ext _ _ (fun _ => 0)); [clear; induction (Z.to_nat b) as [|n IHn]; cbn [zsum]; lia|].
  intros d Hd. apply IH. intros tape Ht. apply H. constructor; [lia|exact Ht].
Qed.
Lemma tuples_cons b bs : tuples (b :: bs) = b * tuples bs.
Proof. reflexivity. Qed.

Section Game.
Variable A : Type.
Variable M : Z.
Hypothesis HM : 0 < M.
(** The answers that help, at most one per question. *)
Variable lucky : bytes -> Z -> Prop.
Hypothesis one : forall x c d, lucky x c -> lucky x d -> c = d.
Definition unlucky (t : answers) : Prop := forall x c, In (x, c) t -> ~ lucky x c.

Lemma game (p : prover A) : forall q t T test, asks p q -> (q <= T)%nat -> unlucky t ->
  (forall tape, Forall2 (fun b d => 0 <= d < b) (repeat M T) tape -> test tape = true -> exists a t', play p t tape = Some (a, t') /\ ~ unlucky t') ->
  M * count (repeat M T) test <= Z.of_nat q * tuples (repeat M T).
Proof.
  assert (Hnn : forall T, Forall (fun b => 0 <= b) (repeat M T)) by (intros T; apply Forall_forall; intros x Hx; apply repeat_spec in Hx; lia).
  induction p as [a|x next IH]; intros q t T test Ha HT Hu Hw.
  - rewrite count_none; [pose proof (tuples_nonneg _ (Hnn T)); lia|]. intros tape Ht. destruct (test tape) eqn:E; [|reflexivity].
    destruct (Hw tape Ht E) as (a' & t' & Ep & Hl). cbn [play] in Ep. injection Ep as <- <-. contradiction.
  - destruct q as [|q]; [contradiction|]. cbn [asks] in Ha. cbn [play] in Hw. destruct (answer_to t x) as [c|] eqn:Ec.
    + specialize (IH c q t T test (Ha c) ltac:(lia) Hu Hw). pose proof (tuples_nonneg _ (Hnn T)). lia.
    + destruct T as [|T]; [lia|]. cbn [repeat count]. rewrite tuples_cons. set (N := fun d => count (repeat M T) (fun ds => test (d :: ds))). set (K := tuples (repeat M T)).
      assert (HK : 0 <= K) by apply (tuples_nonneg _ (Hnn T)).
      assert (Cap : forall d, N d <= K) by (intros d; apply (count_bound _ (fun ds => test (d :: ds)) (Hnn T))).
      assert (Small : forall c, 0 <= c < M -> ~ lucky x c -> M * N c <= Z.of_nat q * K).
      { intros c Hc Hl. apply (IH c q ((x, c) :: t) T _ (Ha c) ltac:(lia)).
        - intros y d [E|Hin]; [injection E as <- <-; exact Hl|exact (Hu y d Hin)].
        - intros tape Ht Et. apply (Hw (c :: tape)); [|exact Et]. cbn [repeat]. constructor; [exact Hc|exact Ht]. }
      rewrite zsum_scale. assert (Z.of_nat (Z.to_nat M) = M) as EM by lia.
      assert (B : zsum (Z.to_nat M) (fun d => M * N d) <= M * K + Z.of_nat (Z.to_nat M) * (Z.of_nat q * K)).
      { apply zsum_one_large; [lia|lia| |].
        - intros d _. apply Z.mul_le_mono_nonneg_l; [lia|apply Cap].
        - rewrite EM. intros d e Hd He Ld Le. destruct (Z.eq_dec d e) as [|Hne]; [assumption|exfalso].
          assert (Nd : ~ ~ lucky x d) by (intros H; specialize (Small d Hd H); lia). assert (Ne : ~ ~ lucky x e) by (intros H; specialize (Small e He H); lia).
          apply Nd. intros H1. apply Ne. intros H2. exact (Hne (one x d e H1 H2)). }
      rewrite EM in B. replace (Z.of_nat (S q)) with (Z.of_nat q + 1) by lia. clearbody K. clear - B. lia.
Qed.
End Game.

Lemma asks_checked {A} query (p : prover A) : forall q, asks p q -> asks (then_checked query p) (q + 1).
Proof.
  induction p as [a|x next IH]; intros q H; cbn [then_checked].
  - destruct (query a); cbn [asks]; try exact I. rewrite Nat.add_1_r. intros; exact I.
  - destruct q as [|q]; [contradiction|]. cbn [asks plus] in *. intros c. apply IH, H.
Qed.
(** A question that was answered is in the list. *)
Lemma answer_to_in t x c : answer_to t x = Some c -> In (x, c) t.
Proof.
  induction t as [|[y d] t IH]; cbn [answer_to]; [discriminate|]. destruct (bytes_eqb y x) eqn:E; intros H.
  - apply bytes_eqb_eq in E. subst y. injection H as ->. left. reflexivity.
  - right. exact (IH H).
Qed.
Lemma play_keeps {A} (p : prover A) : forall t tape a t', play p t tape = Some (a, t') -> forall e, In e t -> In e t'.
Proof.
  induction p as [b|x next IH]; intros t tape a t' E e He; cbn [play] in E; [injection E as <- <-; exact He|].
  destruct (answer_to t x); [exact (IH _ _ _ _ _ E e He)|]. destruct tape as [|c rest]; [discriminate|]. apply (IH _ _ _ _ _ E). right. exact He.
Qed.
(** The verifier's question is among the answered ones. *)
Lemma play_checked {A} query (p : prover A) : forall t tape a t' x, play (then_checked query p) t tape = Some (a, t') -> query a = Ok x -> exists c, In (x, c) t'.
Proof.
  induction p as [b|y next IH]; intros t tape a t' x E Q; cbn [then_checked] in E.
  - destruct (query b) as [z|?| | |] eqn:Eb; cbn [play] in E; try (injection E as <- <-; congruence).
    destruct (answer_to t z) as [c|] eqn:Ea.
    + injection E as <- <-. exists c. apply answer_to_in in Ea. congruence.
    + destruct tape as [|c rest]; [discriminate|]. injection E as <- <-. exists c. left. congruence.
  - cbn [play] in E. destruct (answer_to t y); [exact (IH _ _ _ _ _ _ E Q)|]. destruct tape; [discriminate|]. exact (IH _ _ _ _ _ _ E Q).
Qed.

(** If for every string at most one answer can lead to acceptance, questions help only by their number. *)
Lemma one_answer_rarely_fools {A} k (query : A -> outcome bytes) (accepts : (bytes -> bytes) -> A -> Prop) : 0 <= k ->
  (forall H a, accepts H a -> exists x, query a = Ok x) ->
  (forall x H1 a1 c1 H2 a2 c2, query a1 = Ok x -> query a2 = Ok x -> accepts H1 a1 -> accepts H2 a2 ->
    random_oracle 512 H1 x (2 ^ k) = Ok c1 -> random_oracle 512 H2 x (2 ^ k) = Ok c2 -> c1 = c2) ->
  rarely_fools k query accepts.
Proof.
  intros Hk Hq H1 p q test Ha Hw.
  set (lucky := fun x c => exists H a, query a = Ok x /\ accepts H a /\ random_oracle 512 H x (2 ^ k) = Ok c).
  apply (game A (2 ^ k) ltac:(apply Z.pow_pos_nonneg; lia) lucky) with (p := then_checked query p) (t := []).
  - intros x c d (Ha1 & a1 & Q1 & V1 & R1) (Ha2 & a2 & Q2 & V2 & R2). exact (H1 x Ha1 a1 c Ha2 a2 d Q1 Q2 V1 V2 R1 R2).
  - apply asks_checked, Ha.
  - lia.
  - intros x c [].
  - intros tape Ht Et.
    assert (Lt : length tape = (q + 1)%nat). { clear - Ht. rewrite <- (repeat_length (2 ^ k) (q + 1)). induction Ht; cbn [length]; congruence. }
    assert (Rt : Forall (fun c => 0 <= c < 2 ^ k) tape). { clear - Ht. remember (repeat (2 ^ k) (q + 1)) as bs. assert (Hb : forall b, In b bs -> b = 2 ^ k) by (subst; intros b Hb; exact (repeat_spec _ _ _ Hb)). clear Heqbs.
      induction Ht as [|b d bs ds Hd Ht IH]; constructor; [rewrite <- (Hb b (or_introl eq_refl)); exact Hd|apply IH; intros; apply Hb; right; assumption]. }
    destruct (Hw tape Lt Rt Et) as (a & t & H & Ep & Hag & Hacc).
    exists a, t. split; [exact Ep|]. destruct (Hq H a Hacc) as (x & Qx). destruct (play_checked query p [] tape a t x Ep Qx) as (c & Hin).
    intros Hu. apply (Hu x c Hin). exists H, a. split; [exact Qx|]. split; [exact Hacc|exact (Hag x c Hin)].
Qed.

(** ** Every table of answers is given by some hash function *)
Section Programmed.
(** The wanted answers, each below 2^k. *)
Variable k : Z.
Variable f : bytes -> Z.
Hypothesis Hk : 0 <= k.
Hypothesis Hf : forall x, 0 <= f x < 2 ^ k.
Definition blocks : Z := ro_iterations 512 (bit_length (2 ^ k) + 512).
Definition stream (x : bytes) : bytes := bn2bin (64 * Z.to_nat blocks) (f x * 2 ^ (blocks * 512 - (bit_length (2 ^ k) + 512))) ++ repeat x00 (Z.to_nat 32768).
Definition programmed (y : bytes) : bytes :=
  match y with [] => repeat x00 64 | b :: x => firstn 64 (skipn (64 * (Z.to_nat (bz b) - 1)) (stream x)) end.

Lemma bit_length_2k : bit_length (2 ^ k) = k + 1.
Proof. unfold bit_length. destruct (Z.eqb_spec (2 ^ k) 0) as [H|H]; [pose proof (Z.pow_pos_nonneg 2 k ltac:(lia) Hk); lia|]. rewrite Z.abs_eq, Z.log2_pow2 by (apply Z.pow_nonneg || assumption; lia). lia. Qed.
Lemma programmed_length y : length (programmed y) = 64%nat.
Proof.
  destruct y as [|b x]; cbn [programmed]; [apply repeat_length|]. rewrite firstn_length, skipn_length. unfold stream. rewrite app_length, repeat_length, bn2bin_length.
  pose proof (bz_range b). assert (Z.of_nat (Z.to_nat 32768) = 32768) by lia. lia.
Qed.
Lemma programmed_blocks x n i : 1 <= i -> i + Z.of_nat n <= 256 -> Z.of_nat n + i - 1 <= blocks ->
  counter_blocks programmed x i n (firstn (64 * n) (skipn (64 * (Z.to_nat i - 1)) (stream x))).
Proof.
  revert i. induction n as [|n IH]; intros i Hi Hn Hb; [constructor|].
  set (s := stream x). replace (firstn (64 * S n) (skipn (64 * (Z.to_nat i - 1)) s)) with (programmed ([zb i] ++ x) ++ firstn (64 * n) (skipn (64 * (Z.to_nat (i + 1) - 1)) s)).
  - constructor; [cbn; rewrite bz_zb, Z.mod_small by lia; lia|cbn; rewrite bz_zb, Z.mod_small by lia; lia|apply IH; lia].
  - cbn [programmed app]. rewrite bz_zb, Z.mod_small by lia. fold s. replace (64 * (Z.to_nat (i + 1) - 1))%nat with (64 + 64 * (Z.to_nat i - 1))%nat by lia.
    assert (K : forall a b (l : bytes), skipn (a + b) l = skipn a (skipn b l)).
    { clear. intros a b. revert a. induction b as [|b IH]; intros a l; [rewrite Nat.add_0_r; reflexivity|]. destruct l as [|y l]; [rewrite !skipn_nil; reflexivity|]. rewrite Nat.add_succ_r. cbn [skipn]. apply IH. }
    rewrite K. set (l := skipn (64 * (Z.to_nat i - 1)) s). replace (64 * S n)%nat with (64 + 64 * n)%nat by lia.
    assert (G : forall a b (l : bytes), firstn (a + b) l = firstn a l ++ firstn b (skipn a l)).
    { clear. induction a as [|a IH]; intros b [|y l]; cbn [plus firstn skipn app]; try reflexivity; [rewrite firstn_nil; reflexivity|]. f_equal. apply IH. }
    rewrite G. reflexivity.
Qed.
Lemma programmed_answers x : blocks * 512 < 130048 -> random_oracle 512 programmed x (2 ^ k) = Ok (f x).
Proof.
  intros Hb. assert (P : 0 < 2 ^ k) by (apply Z.pow_pos_nonneg; lia). pose proof (ro_iterations_ge 512 (bit_length (2 ^ k) + 512) ltac:(lia)) as Hge. fold blocks in Hge. pose proof bit_length_2k as Eb.
  set (s := bn2bin (64 * Z.to_nat blocks) (f x * 2 ^ (blocks * 512 - (bit_length (2 ^ k) + 512)))).
  assert (C : counter_blocks programmed x 1 (Z.to_nat blocks) s).
  { replace s with (firstn (64 * Z.to_nat blocks) (skipn (64 * (Z.to_nat 1 - 1)) (stream x))); [apply programmed_blocks; lia|].
    change (64 * (Z.to_nat 1 - 1))%nat with 0%nat. cbn [skipn]. unfold stream. fold s. rewrite firstn_app, (firstn_all2 s) by (unfold s; rewrite bn2bin_length; lia).
    replace (64 * Z.to_nat blocks - length s)%nat with 0%nat by (unfold s; rewrite bn2bin_length; lia). cbn [firstn]. apply app_nil_r. }
  pose proof (random_oracle_value 512 programmed x (2 ^ k) s ltac:(lia) P ltac:(intros; rewrite programmed_length; lia)) as R. cbv zeta in R. fold blocks in R. rewrite R by assumption. f_equal.
  unfold s. rewrite bn2bin_value. set (e := blocks * 512 - (bit_length (2 ^ k) + 512)). assert (He : 0 <= e) by lia. assert (Pe : 0 < 2 ^ e) by (apply Z.pow_pos_nonneg; lia).
  replace (256 ^ Z.of_nat (64 * Z.to_nat blocks)) with (2 ^ (k + e + 513)).
  2:{ change 256 with (2 ^ 8). rewrite <- Z.pow_mul_r by lia. f_equal. lia. }
  rewrite (Z.mod_small (f x * 2 ^ e)).
  - rewrite Z.div_mul by lia. apply Z.mod_small, Hf.
  - specialize (Hf x). split; [apply Z.mul_nonneg_nonneg; lia|]. rewrite <- Z.add_assoc, Z.pow_add_r by lia.
    assert (2 ^ e <= 2 ^ (e + 513)) by (apply Z.pow_le_mono_r; lia). nia.
Qed.
End Programmed.
