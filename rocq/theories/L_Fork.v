(** Lemmas for rewinding: a prover succeeds by luck, or two of its runs differ in the answer to the verifier's question. *)
From Verif Require Import Base M_BigNum S_BigNum L_BigNum L_BigNumP L_Mod M_Num S_Num L_Num S_Hide L_Hide S_Oracle L_Oracle S_Fork.

(** All tapes of length T with values below M. *)
Fixpoint tapes (M : Z) (T : nat) : list (list Z) :=
  match T with O => [[]] | S T' => concat (map (fun c => map (cons c) (tapes M T')) (map Z.of_nat (seq 0 (Z.to_nat M)))) end.
Lemma tapes_in M T tape : In tape (tapes M T) <-> Forall2 (fun b d => 0 <= d < b) (repeat M T) tape.
Proof.
  revert tape. induction T as [|T IH]; intros tape; cbn [tapes repeat].
  - split; [intros [<-|[]]; constructor|intros H; inversion H; left; reflexivity].
  - rewrite in_concat. split.
    + intros (l & Hl & Hin). apply in_map_iff in Hl. destruct Hl as (c & <- & Hc). apply in_map_iff in Hin. destruct Hin as (r & <- & Hr). apply IH in Hr. constructor; [|exact Hr].
      apply in_map_iff in Hc. destruct Hc as (i & <- & Hi). apply in_seq in Hi. lia.
    + intros H. inversion H as [|? c ? r Hc Hr]; subst. exists (map (cons c) (tapes M T)). split; [|apply in_map, IH, Hr].
      apply (in_map (fun c => map (cons c) (tapes M T))). apply in_map_iff. exists (Z.to_nat c). split; [lia|]. apply in_seq. lia.
Qed.
(** A finite case distinction. *)
Lemma all_or_one (F G : Z -> Prop) M : (forall c, 0 <= c < M -> F c \/ G c) -> (exists c, 0 <= c < M /\ F c) \/ (forall c, 0 <= c < M -> G c).
Proof.
  intros H. assert (X : forall n, (Z.of_nat n <= M) -> (exists c, 0 <= c < Z.of_nat n /\ F c) \/ (forall c, 0 <= c < Z.of_nat n -> G c)).
  { induction n as [|n IH]; intros Hn; [right; lia|]. destruct IH as [(c & Hc & Fc)|IH]; [lia|left; exists c; split; [lia|exact Fc]|].
    destruct (H (Z.of_nat n) ltac:(lia)) as [Fn|Gn]; [left; exists (Z.of_nat n); split; [lia|exact Fn]|]. right. intros c Hc. destruct (Z.eq_dec c (Z.of_nat n)) as [->|]; [exact Gn|apply IH; lia]. }
  destruct (Z_le_dec M 0) as [|Hm]; [right; lia|]. destruct (X (Z.to_nat M) ltac:(lia)) as [(c & Hc & Fc)|Hg]; [left; exists c; split; [lia|exact Fc]|right; intros; apply Hg; lia].
Qed.
(** A boolean condition holds for two numbers, or for at most one. *)
Lemma two_or_one (f : Z -> bool) M : (exists c d, c <> d /\ 0 <= c < M /\ 0 <= d < M /\ f c = true /\ f d = true) \/ (forall c d, 0 <= c < M -> 0 <= d < M -> f c = true -> f d = true -> c = d).
Proof.
  destruct (all_or_one (fun c => exists d, c <> d /\ 0 <= d < M /\ f c = true /\ f d = true) (fun c => forall d, 0 <= d < M -> f c = true -> f d = true -> c = d) M) as [(c & Hc & d & H)|H].
  - intros c Hc. destruct (all_or_one (fun d => c <> d /\ f c = true /\ f d = true) (fun d => f c = true -> f d = true -> c = d) M) as [(d & Hd & H)|H].
    + intros d Hd. destruct (Z.eq_dec c d); [right; auto|]. destruct (f c) eqn:Ec, (f d) eqn:Ed; (left; tauto) || (right; intros; congruence).
    + left. exists d. tauto.
    + right. exact H.
  - left. exists c, d. tauto.
  - right. intros c d Hc Hd. apply H; assumption.
Qed.

Lemma play_answers {A} (p : prover A) : forall t tape a t' x c, play p t tape = Some (a, t') -> answer_to t x = Some c -> answer_to t' x = Some c.
Proof.
  induction p as [b|y next IH]; intros t tape a t' x c E He; cbn [play] in E; [injection E as <- <-; exact He|].
  destruct (answer_to t y) eqn:Ey; [exact (IH _ _ _ _ _ _ _ E He)|]. destruct tape as [|d rest]; [discriminate|]. apply (IH _ _ _ _ _ _ _ E). cbn [answer_to].
  destruct (bytes_eqb y x) eqn:Eb; [apply bytes_eqb_eq in Eb; congruence|exact He].
Qed.
(** Every string in the table has one answer. *)
Definition tidy (t : answers) : Prop := forall x c, In (x, c) t -> answer_to t x = Some c.
Lemma bytes_eqb_refl x : bytes_eqb x x = true. Proof. apply bytes_eqb_eq. reflexivity. Qed.
Lemma tidy_cons t x c : tidy t -> answer_to t x = None -> tidy ((x, c) :: t).
Proof.
  intros H N y d [E|Hin]; cbn [answer_to].
  - injection E as <- <-. rewrite bytes_eqb_refl. reflexivity.
  - destruct (bytes_eqb x y) eqn:Eb; [|exact (H y d Hin)]. apply bytes_eqb_eq in Eb. subst y. rewrite (H x d Hin) in N. discriminate.
Qed.
Lemma play_tidy {A} (p : prover A) : forall t tape a t', play p t tape = Some (a, t') -> tidy t -> tidy t'.
Proof.
  induction p as [b|y next IH]; intros t tape a t' E He; cbn [play] in E; [injection E as <- <-; exact He|].
  destruct (answer_to t y) eqn:Ey; [exact (IH _ _ _ _ _ E He)|]. destruct tape as [|d rest]; [discriminate|]. exact (IH _ _ _ _ _ E (tidy_cons _ _ _ He Ey)).
Qed.
(** All answers come from the table or the tape. *)
Lemma play_values {A} (P : Z -> Prop) (p : prover A) : forall t tape a t', play p t tape = Some (a, t') -> Forall P tape -> Forall P (map snd t) -> Forall P (map snd t').
Proof.
  induction p as [b|y next IH]; intros t tape a t' E Ht Ha; cbn [play] in E; [injection E as <- <-; exact Ha|].
  destruct (answer_to t y) eqn:Ey; [exact (IH _ _ _ _ _ E Ht Ha)|]. destruct tape as [|d rest]; [discriminate|]. inversion Ht; subst. apply (IH _ _ _ _ _ E); [assumption|constructor; assumption].
Qed.

Section Fork.
Variable A : Type.
Variable M : Z.
Hypothesis HM : 0 < M.
Variable query : A -> outcome bytes.
(** The verifier's verdict when its question is answered c. *)
Variable verdict : A -> Z -> bool.

(** The run ends with an accepted message and the verifier's question has the answer c. *)
Definition run_ends (p : prover A) (t : answers) (tape : list Z) (x : bytes) (c : Z) : Prop :=
  exists a t', play p t tape = Some (a, t') /\ query a = Ok x /\ answer_to t' x = Some c /\ verdict a c = true.
Definition fork (p : prover A) (t : answers) : Prop :=
  exists before c1 rest1 c2 rest2 x, c1 <> c2 /\ Forall (fun c => 0 <= c < M) (before ++ c1 :: rest1) /\ Forall (fun c => 0 <= c < M) (before ++ c2 :: rest2) /\
    run_ends p t (before ++ c1 :: rest1) x c1 /\ run_ends p t (before ++ c2 :: rest2) x c2.
(** The same as a boolean, for one string and one answer. *)
Definition ends_with (p : prover A) (t : answers) (x : bytes) (c : Z) (tape : list Z) : bool :=
  match play p t tape with
  | Some (a, _) => match query a with Ok y => bytes_eqb y x && verdict a c | _ => false end
  | None => false
  end.
Lemma tape_range T tape : Forall2 (fun b d => 0 <= d < b) (repeat M T) tape -> Forall (fun c => 0 <= c < M) tape.
Proof. revert tape. induction T as [|T IH]; intros tape H; cbn [repeat] in H; inversion H; subst; constructor; [assumption|apply IH; assumption]. Qed.

Lemma fork_or_luck (p : prover A) : forall q t T test, asks p q -> (q <= T)%nat ->
  (forall tape, Forall2 (fun b d => 0 <= d < b) (repeat M T) tape -> test tape = true -> exists x c, run_ends p t tape x c /\ answer_to t x = None) ->
  fork p t \/ M * count (repeat M T) test <= Z.of_nat q * tuples (repeat M T).
Proof.
  assert (Hnn : forall T, Forall (fun b => 0 <= b) (repeat M T)) by (intros T; apply Forall_forall; intros x Hx; apply repeat_spec in Hx; lia).
  induction p as [a|x next IH]; intros q t T test Ha HT Hw.
  - right. rewrite count_none; [pose proof (tuples_nonneg _ (Hnn T)); lia|]. intros tape Ht. destruct (test tape) eqn:E; [|reflexivity].
    destruct (Hw tape Ht E) as (x & c & (a' & t' & Ep & _ & Ea & _) & Hnew). cbn [play] in Ep. injection Ep as <- <-. congruence.
  - destruct q as [|q]; [contradiction|]. cbn [asks] in Ha. destruct (answer_to t x) as [c|] eqn:Ec.
    + assert (Eq : forall tape y d, run_ends (Ask x next) t tape y d <-> run_ends (next c) t tape y d) by (intros; unfold run_ends; cbn [play]; rewrite Ec; reflexivity).
      destruct (IH c q t T test (Ha c) ltac:(lia)) as [F|B].
      * intros tape Ht Et. destruct (Hw tape Ht Et) as (y & d & R & N). exists y, d. split; [apply Eq; exact R|exact N].
      * left. destruct F as (before & c1 & r1 & c2 & r2 & y & H1 & H2 & H3 & H4 & H5). exists before, c1, r1, c2, r2, y. rewrite !Eq. tauto.
      * right. pose proof (tuples_nonneg _ (Hnn T)). lia.
    + destruct T as [|T]; [lia|]. cbn [repeat count]. rewrite tuples_cons. set (N := fun d => count (repeat M T) (fun ds => test (d :: ds))). set (K := tuples (repeat M T)).
      assert (HK : 0 <= K) by apply (tuples_nonneg _ (Hnn T)).
      assert (Cap : forall d, N d <= K) by (intros d; apply (count_bound _ (fun ds => test (d :: ds)) (Hnn T))).
      assert (Eq : forall c tape y d, run_ends (Ask x next) t (c :: tape) y d <-> run_ends (next c) ((x, c) :: t) tape y d) by (intros; unfold run_ends; cbn [play]; rewrite Ec; reflexivity).
      set (W := fun c => existsb (ends_with (next c) ((x, c) :: t) x c) (tapes M T)).
      assert (WE : forall c, W c = true -> exists tape, Forall (fun c => 0 <= c < M) tape /\ run_ends (next c) ((x, c) :: t) tape x c).
      { intros c H. unfold W in H. apply existsb_exists in H. destruct H as (tape & Hin & He). apply tapes_in in Hin. exists tape. split; [exact (tape_range T tape Hin)|].
        unfold ends_with in He. destruct (play (next c) ((x, c) :: t) tape) as [[a t']|] eqn:Ep; [|discriminate]. destruct (query a) as [y|?| | |] eqn:Eqy; try discriminate.
        apply andb_prop in He. destruct He as [Ey Ev]. apply bytes_eqb_eq in Ey. subst y. exists a, t'. repeat (split; [assumption|]). split; [|exact Ev].
        apply (play_answers _ _ _ _ _ _ _ Ep). cbn [answer_to]. rewrite bytes_eqb_refl. reflexivity. }
      destruct (two_or_one W M) as [(c & d & Hne & Hc & Hd & Wc & Wd)|One].
      { left. destruct (WE c Wc) as (r1 & R1 & E1). destruct (WE d Wd) as (r2 & R2 & E2). exists [], c, r1, d, r2, x. cbn [app]. split; [exact Hne|].
        split; [constructor; assumption|]. split; [constructor; assumption|]. rewrite !Eq. split; assumption. }
      destruct (all_or_one (fun c => fork (next c) ((x, c) :: t)) (fun c => W c = true \/ M * N c <= Z.of_nat q * K) M) as [(c & Hc & F)|Sm].
      { intros c Hc. destruct (W c) eqn:Wc; [right; left; reflexivity|].
        destruct (IH c q ((x, c) :: t) T (fun ds => test (c :: ds)) (Ha c) ltac:(lia)) as [F|B]; [|left; exact F|right; right; exact B].
        intros tape Ht Et. destruct (Hw (c :: tape)) as (y & d & R & Nw); [cbn [repeat]; constructor; assumption|exact Et|]. apply Eq in R. exists y, d. split; [exact R|]. cbn [answer_to].
        destruct (bytes_eqb x y) eqn:Eb; [exfalso|exact Nw]. apply bytes_eqb_eq in Eb. subst y. destruct R as (a & t' & Ep & Qa & An & Vd).
        assert (An' : answer_to t' x = Some c) by (apply (play_answers _ _ _ _ _ _ _ Ep); cbn [answer_to]; rewrite bytes_eqb_refl; reflexivity). assert (d = c) by congruence. subst d.
        assert (X : W c = true); [|congruence]. unfold W. apply existsb_exists. exists tape. split; [apply tapes_in; exact Ht|]. unfold ends_with. rewrite Ep, Qa, bytes_eqb_refl, Vd. reflexivity. }
      { left. destruct F as (before & c1 & r1 & c2 & r2 & y & H1 & H2 & H3 & H4 & H5). exists (c :: before), c1, r1, c2, r2, y. cbn [app]. split; [exact H1|]. split; [constructor; assumption|].
        split; [constructor; assumption|]. rewrite !Eq. split; assumption. }
      right. rewrite zsum_scale. assert (Z.of_nat (Z.to_nat M) = M) as EM by lia.
      assert (B : zsum (Z.to_nat M) (fun d => M * N d) <= M * K + Z.of_nat (Z.to_nat M) * (Z.of_nat q * K)).
      { apply zsum_one_large; [lia|lia| |].
        - intros d _. apply Z.mul_le_mono_nonneg_l; [lia|apply Cap].
        - rewrite EM. intros d e Hd He Ld Le. destruct (Sm d Hd) as [Wd|Sd]; [|lia]. destruct (Sm e He) as [We|Se]; [|lia]. exact (One d e Hd He Wd We). }
      rewrite EM in B. replace (Z.of_nat (S q)) with (Z.of_nat q + 1) by lia. clearbody K. clear - B. lia.
Qed.
End Fork.

(** If the verifier's verdict is a decidable function of the message and of the answer to its question, a prover who succeeds often forks. *)
Lemma often_forks {A} k (query : A -> outcome bytes) (accepts : (bytes -> bytes) -> A -> Prop) (verdict : A -> Z -> bool) (p : prover A) q : 0 <= k <= 129023 ->
  (forall H a, accepts H a <-> exists x c, query a = Ok x /\ random_oracle 512 H x (2 ^ k) = Ok c /\ verdict a c = true) ->
  asks p q -> succeeds_often k query accepts p q -> forks k query accepts p.
Proof.
  intros Hk Hv Ha (test & Hw & Hbig). assert (P : 0 < 2 ^ k) by (apply Z.pow_pos_nonneg; lia).
  assert (Lt : forall T tape, Forall2 (fun b d => 0 <= d < b) (repeat (2 ^ k) T) tape -> length tape = T).
  { induction T as [|T IH]; intros tape Ht; cbn [repeat] in Ht; inversion Ht; subst; cbn [length]; [reflexivity|]. f_equal. apply IH. assumption. }
  destruct (fork_or_luck A (2 ^ k) P query verdict (then_checked query p) (q + 1) [] (q + 1) test (asks_checked query p q Ha) ltac:(lia)) as [F|B]; [| |lia].
  - intros tape Ht Et. destruct (Hw tape (Lt _ _ Ht) (tape_range (2 ^ k) (q + 1) tape Ht) Et) as (a & t & H & Ep & Hag & Hacc). apply Hv in Hacc. destruct Hacc as (x & c & Qx & Rx & Vd).
    destruct (play_checked query p [] tape a t x Ep Qx) as (c' & Hin). assert (c' = c) by (specialize (Hag x c' Hin); congruence). subst c'.
    exists x, c. split; [|reflexivity]. exists a, t. repeat (split; [assumption|]). split; [|exact Vd]. apply (play_tidy _ _ _ _ _ Ep); [intros ? ? []|exact Hin].
  - destruct F as (before & c1 & r1 & c2 & r2 & x & Hne & R1 & R2 & (a1 & t1 & E1 & Q1 & A1 & V1) & (a2 & t2 & E2 & Q2 & A2 & V2)).
    assert (Pr : forall t tape a, play (then_checked query p) [] tape = Some (a, t) -> Forall (fun c => 0 <= c < 2 ^ k) tape -> exists H, agrees H k t).
    { intros t tape a Ep Rt. set (f := fun x => match answer_to t x with Some c => c | None => 0 end).
      assert (Vt : Forall (fun c => 0 <= c < 2 ^ k) (map snd t)) by (apply (play_values _ _ _ _ _ _ Ep Rt); constructor).
      assert (Hf : forall x, 0 <= f x < 2 ^ k).
      { intros y. unfold f. destruct (answer_to t y) as [c|] eqn:E; [|lia]. apply answer_to_in in E. exact (proj1 (Forall_forall _ _) Vt c (in_map snd t (y, c) E)). }
      exists (programmed k f). intros y c Hin. rewrite (programmed_answers k f ltac:(lia) Hf).
      - unfold f. rewrite (play_tidy _ _ _ _ _ Ep) with (c := c); [reflexivity|intros ? ? []|exact Hin].
      - unfold blocks, ro_iterations. rewrite bit_length_2k by lia. assert ((k + 1 + 512 + 512 - 1) / 512 < 254) by (apply Z.div_lt_upper_bound; lia). lia. }
    destruct (Pr _ _ _ E1 R1) as (H1 & G1). destruct (Pr _ _ _ E2 R2) as (H2 & G2).
    assert (I1 : In (x, c1) t1) by (apply answer_to_in; exact A1). assert (I2 : In (x, c2) t2) by (apply answer_to_in; exact A2).
    assert (B1 : 0 <= c1 < 2 ^ k) by (apply Forall_app in R1; destruct R1 as [_ R1]; inversion R1; assumption). assert (B2 : 0 <= c2 < 2 ^ k) by (apply Forall_app in R2; destruct R2 as [_ R2]; inversion R2; assumption).
    exists before, c1, r1, c2, r2, a1, t1, H1, a2, t2, H2, x. repeat (split; [assumption|]). split; apply Hv.
    + exists x, c1. split; [exact Q1|]. split; [apply G1; exact I1|exact V1].
    + exists x, c2. split; [exact Q2|]. split; [apply G2; exact I2|exact V2].
Qed.
