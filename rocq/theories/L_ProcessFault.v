(** Lemmas for C84: on a failing device the processing of record files ends as without faults, or with an outcome that a fault explains. *)
From Verif Require Import Base M_RecordIO L_RecordIO M_Dec L_Dec M_Shard S_Shard L_Shard L_Merge M_Process L_Process M_File M_ProcessFault.

Lemma set_same {A} (l : list A) i x y : nth_error l i = Some y -> nth_error (set_nth i x l) i = Some x.
Proof. revert i. induction l as [|a l IH]; intros [|i] H; cbn in *; try discriminate; auto. Qed.
Lemma set_other {A} (l : list A) i j x : i <> j -> nth_error (set_nth i x l) j = nth_error l j.
Proof. revert i j. induction l as [|a l IH]; intros [|i] [|j] H; cbn; auto; try lia. Qed.
Lemma Forall2_nth {A B} (R : A -> B -> Prop) l l' i : Forall2 R l l' ->
  match nth_error l i, nth_error l' i with Some a, Some b => R a b | None, None => True | _, _ => False end.
Proof. intros H. revert i. induction H as [|a b l l' Hab H IH]; intros [|i]; cbn; auto. apply IH. Qed.
Lemma Forall2_set {A B} (R : A -> B -> Prop) l l' i a b : Forall2 R l l' -> R a b -> Forall2 R (set_nth i a l) (set_nth i b l').
Proof. intros H Hab. revert i. induction H as [|x y l l' Hxy H IH]; intros [|i]; cbn; constructor; auto. Qed.

Section Sim.
  (** [E]: some operation other than a close has failed.  [C]: the first access to some shard has failed.  [U]: some close has failed. *)
  Context (E C U : Prop).
  Definition matches {A B} (R : A -> B -> Prop) (xf : outcome A) (x : outcome B) : Prop :=
    match xf with
    | Ok a => exists b, x = Ok b /\ R a b
    | Err c => x = Err c \/ E
    | Crash => x = Crash \/ C
    | UB => x = UB \/ U
    | Diverge => x = Diverge
    end.
  Lemma matches_bind {A B A' B'} (R : A -> B -> Prop) (R' : A' -> B' -> Prop) xf x f g : matches R xf x ->
    (forall a b, R a b -> matches R' (f a) (g b)) -> matches R' (bind xf f) (bind x g).
  Proof.
    unfold matches. destruct xf as [a|c| | |]; cbn [bind].
    - intros (b & -> & H) G. apply (G a b H).
    - intros [->|H] _; auto.
    - intros [->|H] _; auto.
    - intros [->|H] _; auto.
    - intros -> _; auto.
  Qed.
  Lemma matches_mono {A B} (R R' : A -> B -> Prop) xf x : matches R xf x -> (forall a b, R a b -> R' a b) -> matches R' xf x.
  Proof. unfold matches. destruct xf; auto. intros (b & Eb & H) G. eauto. Qed.

  (** One reader. *)
  Section Reader.
    Context (fl : nat -> bool) (HE : forall n, fl n = true -> E).
    Definition Rr (r : rd) (f : bytes) : Prop := rd_rest r = f /\ (rd_eof r = true -> f = []) /\ (rd_err r = true -> E).

    Lemma varint_sim n : forall f c, matches (fun '(s, t, r, _) '(s', t', r') => s = s' /\ t = t' /\ r = r') (fr_varint fl n f c) (varint_loop n f).
    Proof.
      induction n as [|n IH]; intros f c; cbn [fr_varint varint_loop]; [left; reflexivity|].
      destruct (fl c) eqn:F; [right; exact (HE _ F)|]. destruct f as [|b f]; [exists ([], false, []); cbn; auto|].
      destruct (fl (S c)) eqn:F2; [right; exact (HE _ F2)|]. destruct (bz b <? 128); [exists ([b], true, f); cbn; auto|].
      eapply matches_bind; [apply IH|]. intros (((s & t) & r) & c') ((s' & t') & r') (-> & -> & ->). eexists. split; [reflexivity|]. cbn. auto.
    Qed.
    Lemma record_sim f c : matches (fun '(x, f1, _) '(y, f2) => x = y /\ f1 = f2) (fr_record fl f c) (read_record f).
    Proof.
      unfold fr_record, read_record, extract_varint32. 
      assert (G : matches (fun '(s, t, r, _) '(z, r') => t = true /\ z = read_varint32 s /\ r = r')
                    (let* (s, t, f1, c1) := fr_varint fl 5 f c in if t then Ok (s, t, f1, c1) else UB)
                    (let* (s, t, r) := varint_loop 5 f in if t then Ok (read_varint32 s, r) else UB)).
      { eapply matches_bind; [apply varint_sim|]. intros (((s & t) & r) & c') ((s' & t') & r') (-> & -> & ->). destruct t'; [|left; reflexivity].
        eexists. split; [reflexivity|]. cbn. auto. }
      revert G. pose proof (varint_sim 5 f c) as V. destruct (fr_varint fl 5 f c) as [(((s & t) & r) & c')|x| | |]; cbn [bind].
      - intros G. destruct t; cbn [matches] in *.
        + destruct G as ((z & r') & -> & _ & -> & ->). cbn [bind]. destruct (fl c') eqn:F; [right; exact (HE _ F)|].
          unfold f_read. destruct (Z.to_nat (read_varint32 s) <=? length r')%nat; cbn [bind matches]; [eexists; split; [reflexivity|]; cbn; auto|left; reflexivity].
        + destruct G as [->|G]; cbn [bind]; auto.
      - intros [->|G]; cbn; auto.
      - intros [->|G]; cbn; auto.
      - intros [->|G]; cbn; auto.
      - cbn. intros ->; cbn; auto.
    Qed.
    Lemma has_more_sim r f : Rr r f -> let '(r1, h) := rd_has_more fl r in
      Rr r1 f /\ match h with Ok b => b = f_has_more f /\ (b = false -> rd_eof r1 = true) | Err _ => E | _ => False end.
    Proof.
      intros (H1 & H2 & H3). unfold rd_has_more. destruct (rd_eof r) eqn:Ee.
      - split; [split; [exact H1|]; split; [exact (fun _ => H2 eq_refl)|exact H3]|]. rewrite (H2 eq_refl). split; [reflexivity|auto].
      - destruct (rd_err r) eqn:Er; [split; [split; [exact H1|]; split; [rewrite Ee; discriminate|auto]|auto]|].
        destruct (fl (rd_n r)) eqn:F; [split; [split; [exact H1|]; split; [discriminate|intros _; exact (HE _ F)]|exact (HE _ F)]|].
        rewrite H1. destruct f as [|b f]; (split; [split; [reflexivity|]; split; [auto|discriminate]|]); split; auto; try reflexivity; discriminate.
    Qed.
    Lemma read_sim r f : Rr r f -> rd_eof r = false -> matches (fun '(x, r') '(y, f') => x = y /\ Rr r' f') (rd_read fl r) (read_record f).
    Proof.
      intros (H1 & H2 & H3) He. unfold rd_read. rewrite H1. replace (read_record f) with (let* p := read_record f in Ok p) by (destruct (read_record f); reflexivity).
      eapply matches_bind; [apply record_sim|]. intros ((x & f1) & c) (y & f2) (-> & ->). eexists. split; [reflexivity|]. split; [reflexivity|].
      split; [reflexivity|]. cbn. split; [congruence|exact H3].
    Qed.
    Lemma more_not_eof r f : Rr r f -> f_has_more f = true -> rd_eof r = false.
    Proof. intros (_ & H & _) Hm. destruct (rd_eof r); [|reflexivity]. rewrite (H eq_refl) in Hm. discriminate. Qed.
    Lemma chunk_sim n : forall r f, Rr r f ->
      matches (fun '(l, m, r') '(l', f') => l = l' /\ m = f_has_more f' /\ Rr r' f') (rf_chunk fl n (f_has_more f) r) (read_chunk n f).
    Proof.
      induction n as [|n IH]; intros r f H; cbn [rf_chunk read_chunk]; [eexists; split; [reflexivity|]; cbn; auto|].
      destruct (f_has_more f) eqn:Hm; [|eexists; split; [reflexivity|]; cbn; auto].
      eapply matches_bind; [apply read_sim; [exact H|exact (more_not_eof _ _ H Hm)]|]. intros (x & r1) (y & f1) (-> & H1).
      pose proof (has_more_sim r1 f1 H1) as G. destruct (rd_has_more fl r1) as [r2 h]. destruct G as [H2 G].
      destruct h as [b|c| | |]; cbn [bind]; [|right; exact G|destruct G..]. destruct G as [-> _].
      eapply matches_bind; [apply IH; exact H2|]. intros ((l & m) & r3) (l' & f3) (-> & -> & H3). eexists. split; [reflexivity|]. cbn. auto.
    Qed.
  End Reader.

  Context {K : Type} (key : bytes -> K) (ltb : K -> K -> bool) (mb : Z) (dv : device).
  Context (Hsh : forall i n, dv_sh dv i n = true -> E) (Hfirst : forall i, dv_sh dv i 0 = true -> C).
  Context (Hwr : forall i, dv_out_write dv i = true -> E).
  Definition Rm (m : msf) (m' : msr) : Prop := Forall2 Rr (mf_readers m) (ms_readers m') /\ mf_heap m = ms_heap m'.
  Definition seen (m : msf) (i : nat) : Prop := forall r, nth_error (mf_readers m) i = Some r -> rd_eof r = true \/ In i (map snd (mf_heap m)).
  Definition covered (m : msf) : Prop := forall i, seen m i.
  Definition fresh (r : rd) : Prop := rd_eof r = false /\ rd_err r = false /\ rd_n r = O.
  Definition ready (m : msf) : Prop := covered m \/ (mf_heap m = [] /\ Forall fresh (mf_readers m)).

  Lemma any_more_sim : forall rs fs i, Forall2 Rr rs fs -> let '(rs1, o) := any_more dv i rs in
    Forall2 Rr rs1 fs /\ match o with Ok b => b = existsb f_has_more fs | Err _ => E | _ => False end /\
    (Forall fresh rs -> (exists j, dv_sh dv j 0 = true) \/ exists b, o = Ok b) /\ (Forall (fun r => rd_eof r = true) rs -> exists b, o = Ok b).
  Proof.
    intros rs fs i H. revert i. induction H as [|r f rs fs Hr H IH]; intros i; cbn [any_more existsb]; [split; [constructor|]; split; [reflexivity|]; split; eauto|].
    pose proof (has_more_sim (dv_sh dv i) (Hsh i) r f Hr) as G. 
    assert (Gf : fresh r -> dv_sh dv i 0 = true \/ exists b, snd (rd_has_more (dv_sh dv i) r) = Ok b).
    { intros (F1 & F2 & F3). unfold rd_has_more. rewrite F1, F2, F3. destruct (dv_sh dv i 0); [left; reflexivity|right]. destruct (rd_rest r); eexists; reflexivity. }
    assert (Ge : rd_eof r = true -> exists b, snd (rd_has_more (dv_sh dv i) r) = Ok b). { unfold rd_has_more. intros ->. eexists; reflexivity. }
    destruct (rd_has_more (dv_sh dv i) r) as [r1 h]. cbn [snd] in *. destruct G as [H1 G]. specialize (IH (S i)). destruct (any_more dv (S i) rs) as [rs1 o].
    destruct IH as (I1 & I2 & I3 & I4). destruct h as [[|]|c| | |]; try (destruct G; fail).
    - destruct G as [G _]. rewrite <- G. cbn [orb]. split; [constructor; assumption|]. split; [reflexivity|]. split; eauto.
    - destruct G as [G _]. rewrite <- G. cbn [orb]. split; [constructor; assumption|]. split; [exact I2|].
      split; intros F; inversion F; subst; auto.
    - split; [constructor; assumption|]. split.
      + destruct o as [[|]|c'| | |]; auto. rewrite <- I2. symmetry; apply orb_true_r.
      + split; intros F; inversion F as [|? ? F1 F2]; subst.
        * destruct (Gf F1) as [X|(b & X)]; [left; eauto|discriminate].
        * destruct (Ge F1) as (b & X); discriminate.
  Qed.

  Lemma has_more_multi m m' : Rm m m' -> let '(m1, h) := mf_has_more dv m in
    Rm m1 m' /\ match h with Ok b => b = ms_has_more m' | Err _ => E | _ => False end /\ (ready m -> C \/ exists b, h = Ok b) /\ (covered m -> covered m1).
  Proof.
    intros [H1 H2]. unfold mf_has_more, ms_has_more. rewrite <- H2. destruct (mf_heap m) as [|e h] eqn:Eh.
    - pose proof (any_more_sim _ _ 0 H1) as G. 
      destruct (any_more dv 0 (mf_readers m)) as [rs1 o] eqn:Ea. destruct G as (G1 & G2 & G3 & G4). split; [split; [exact G1|cbn; congruence]|].
      assert (Ceof : covered m -> Forall (fun r => rd_eof r = true) (mf_readers m)).
      { intros R. apply Forall_forall. intros r Hr. apply In_nth_error in Hr as (i & Hi). destruct (R i r Hi) as [X|X]; [exact X|]. rewrite Eh in X. destruct X. }
      split; [exact G2|]. split.
      + intros [R|(_ & R)]; [right; apply G4, Ceof, R|]. destruct (G3 R) as [(j & X)|X]; [left; exact (Hfirst _ X)|right; exact X].
      + intros R. specialize (Ceof R). assert (Ers : rs1 = mf_readers m).
        { clear - Ea Ceof. revert Ea. generalize 0%nat. revert rs1 o. induction Ceof as [|r rs Hr Hrs IH]; intros rs1 o i Ea; cbn [any_more] in Ea; [injection Ea as <- _; reflexivity|].
          unfold rd_has_more in Ea. rewrite Hr in Ea. destruct (any_more dv (S i) rs) as [rs2 o2] eqn:E2. injection Ea as <- _. f_equal. exact (IH _ _ _ E2). }
        intros i r. cbn [mf_readers mf_heap]. rewrite Ers. intros Hi. specialize (R i r Hi). rewrite Eh in R. exact R.
    - split; [split; [exact H1|congruence]|]. split; [reflexivity|]. split; eauto.
  Qed.

  Lemma fill_sim m m' i : Rm m m' -> matches Rm (mf_fill dv m i) (fill_from m' i).
  Proof.
    intros [H1 H2]. unfold mf_fill, fill_from. pose proof (Forall2_nth _ _ _ i H1) as G. destruct (nth_error (mf_readers m) i) as [r|], (nth_error (ms_readers m') i) as [f|] eqn:Ef; try (destruct G; fail); [|left; reflexivity].
    pose proof (has_more_sim _ (Hsh i) r f G) as S. destruct (rd_has_more (dv_sh dv i) r) as [r1 h]. destruct S as [Hr1 S].
    destruct h as [b|c| | |]; cbn [bind]; [|right; exact S|destruct S..]. destruct S as [-> _]. destruct (f_has_more f) eqn:Hm.
    - eapply matches_bind; [apply read_sim; [apply Hsh|exact Hr1|exact (more_not_eof _ _ Hr1 Hm)]|]. intros (x & r2) (y & f2) (-> & Hr2).
      eexists. split; [reflexivity|]. split; [apply Forall2_set; assumption|cbn; congruence].
    - exists m'. split; [reflexivity|]. split; [|exact H2]. cbn [mf_readers].
      assert (En : nth_error (ms_readers m') i = Some f) by exact Ef.
      assert (Es : forall rs fs, Forall2 Rr rs fs -> forall k, nth_error fs k = Some f -> Forall2 Rr (set_nth k r1 rs) fs).
      { clear - Hr1. induction 1 as [|a b rs fs Hab H IH]; intros [|k] Hk; cbn in *; try discriminate; constructor; auto. injection Hk as <-. exact Hr1. }
      apply Es; assumption.
  Qed.

  Lemma fill_seen m i m1 : mf_fill dv m i = Ok m1 -> seen m1 i /\ (forall j, seen m j -> seen m1 j) /\ length (mf_readers m1) = length (mf_readers m).
  Proof.
    unfold mf_fill. destruct (nth_error (mf_readers m) i) as [r|] eqn:En; [|discriminate].
    destruct (rd_has_more (dv_sh dv i) r) as [r1 h] eqn:Eh. intros H. apply bind_ok in H as (b & -> & H).
    assert (Len : forall (l : list rd) k x, length (set_nth k x l) = length l) by (induction l; intros [|k] x; cbn; auto).
    destruct b.
    - apply bind_ok in H as ((x & r2) & _ & H). injection H as <-. split; [intros r0 _; right; left; reflexivity|]. split; [|apply Len].
      intros j S r0. cbn [mf_readers mf_heap map]. destruct (Nat.eq_dec i j) as [->|Hij]; [intros _; right; left; reflexivity|].
      rewrite set_other by exact Hij. intros Hj. destruct (S r0 Hj); [left; assumption|right; right; assumption].
    - injection H as <-. assert (He : rd_eof r1 = true).
      { revert Eh. unfold rd_has_more. destruct (rd_eof r) eqn:Ee; [intros X; injection X as <-; exact Ee|]. destruct (rd_err r); [discriminate|]. destruct (dv_sh dv i (rd_n r)); [discriminate|].
        destruct (rd_rest r); [intros X; injection X as <-; reflexivity|discriminate]. }
      split; [intros r0; cbn [mf_readers]; rewrite (set_same _ _ _ _ En); intros X; injection X as <-; left; exact He|]. split; [|apply Len].
      intros j S r0. cbn [mf_readers mf_heap]. destruct (Nat.eq_dec i j) as [->|Hij]; [rewrite (set_same _ _ _ _ En); intros X; injection X as <-; left; exact He|].
      rewrite set_other by exact Hij. apply S.
  Qed.
  Lemma fill_all_sim is : forall m m', Rm m m' -> matches Rm (mf_fill_all dv m is) (fill_all m' is).
  Proof.
    induction is as [|i is IH]; intros m m' H; cbn [mf_fill_all fill_all]; [eexists; split; [reflexivity|exact H]|].
    eapply matches_bind; [apply fill_sim; exact H|]. exact IH.
  Qed.
  Lemma fill_all_seen is : forall m m1, mf_fill_all dv m is = Ok m1 -> (forall j, In j is -> seen m1 j) /\ (forall j, seen m j -> seen m1 j) /\ length (mf_readers m1) = length (mf_readers m).
  Proof.
    induction is as [|i is IH]; intros m m1; cbn [mf_fill_all]; [intros X; injection X as <-; split; [intros j []|]; auto|].
    intros H. apply bind_ok in H as (m2 & H2 & H). destruct (fill_seen _ _ _ H2) as (S1 & S2 & S3). destruct (IH _ _ H) as (T1 & T2 & T3).
    split; [intros j [->|Hj]; auto|]. split; [auto|congruence].
  Qed.
  Lemma pop_in p t : forall h (e : entry) h', pop_nth p t h = Some (e, h') -> forall x, In x h -> x = e \/ In x h'.
  Proof.
    intros h. revert t. induction h as [|a h IH]; intros t e h'; cbn [pop_nth]; [discriminate|]. destruct (p a).
    - destruct t as [|t]; [intros X; injection X as -> ->; intros x [->|Hx]; auto|].
      destruct (pop_nth p t h) as [[e0 r0]|] eqn:Ep.
      + intros X; injection X as <- <-. intros x [->|Hx]; [right; left; reflexivity|]. destruct (IH _ _ _ Ep x Hx); auto. right; right; assumption.
      + intros X; injection X as <- <-. intros x [->|Hx]; auto.
    - destruct (pop_nth p t h) as [[e0 r0]|] eqn:Ep; [|discriminate]. intros X; injection X as <- <-.
      intros x [->|Hx]; [right; left; reflexivity|]. destruct (IH _ _ _ Ep x Hx); auto. right; right; assumption.
  Qed.
  Lemma read_multi t m m' : Rm m m' -> matches (fun '(r, m2) '(r', i, m2') => r = r' /\ Rm m2 m2') (mf_read K key ltb dv t m) (ms_read K key ltb t m').
  Proof.
    intros H. pose proof H as [H1 H2]. unfold mf_read, ms_read.
    eapply matches_bind with (R := Rm).
    - rewrite <- H2. destruct (mf_heap m) as [|e h]; [|eexists; split; [reflexivity|exact H]].
      replace (length (ms_readers m')) with (length (mf_readers m)) by (clear - H1; induction H1; cbn; auto). apply fill_all_sim. exact H.
    - intros m1 m1' [G1 G2]. rewrite <- G2. destruct (heap_pop K key ltb t (mf_heap m1)) as [[[r i] h]|]; [|left; reflexivity].
      eapply matches_bind; [apply (fill_sim (MSF (mf_readers m1) h) (MSR (ms_readers m1') h)); split; [exact G1|reflexivity]|].
      intros m2 m2' G. eexists. split; [reflexivity|]. cbn. auto.
  Qed.
  Lemma read_covered t m r m2 : mf_read K key ltb dv t m = Ok (r, m2) -> (covered m \/ mf_heap m = []) -> covered m2.
  Proof.
    unfold mf_read. intros H R. apply bind_ok in H as (m1 & E1 & H).
    assert (C1 : covered m1).
    { destruct (mf_heap m) as [|e h] eqn:Eh.
      - apply fill_all_seen in E1 as (S1 & _ & L). intros i r0 Hi. assert (Hin : In i (seq 0 (length (mf_readers m)))).
        { apply in_seq. assert (i < length (mf_readers m1))%nat by (apply nth_error_Some; congruence). lia. }
        exact (S1 i Hin r0 Hi).
      - injection E1 as <-. destruct R as [R|R]; [exact R|discriminate]. }
    destruct (heap_pop K key ltb t (mf_heap m1)) as [[[x i] h]|] eqn:Ep; [|discriminate]. apply bind_ok in H as (m3 & E3 & H). injection H as -> ->.
    destruct (fill_seen _ _ _ E3) as (S1 & S2 & _). intros j. destruct (Nat.eq_dec i j) as [->|Hij]; [exact S1|]. apply S2.
    intros r0 Hr0. cbn [mf_readers mf_heap] in *. destruct (C1 j r0 Hr0) as [X|X]; [left; exact X|right].
    apply in_map_iff in X as (e & Ej & He). destruct (pop_in _ _ _ _ _ Ep e He) as [->|Hh]; [cbn in Ej; congruence|]. apply in_map_iff. eauto.
  Qed.
  Lemma loop_sim fuel : forall ties m m' i, Rm m m' -> ready m ->
    matches (fun rs out => rs = map fst out) (mf_loop K key ltb dv fuel ties m i) (ms_read_all K key ltb fuel ties m').
  Proof.
    induction fuel as [|k IH]; intros ties m m' i H R; cbn [mf_loop ms_read_all]; [reflexivity|].
    pose proof (has_more_multi m m' H) as G. assert (Hh : fst (mf_has_more dv m) = fst (mf_has_more dv m)) by reflexivity.
    destruct (mf_has_more dv m) as [m1 h] eqn:Eh. destruct G as (G1 & G2 & G3 & G4).
    destruct h as [[|]|c| | |]; try (destruct G2; fail).
    - rewrite <- G2. pose proof (read_multi (ties O) m1 m' G1) as S. 
      destruct (mf_read K key ltb dv (ties 0%nat) m1) as [[r m2]|c| | |] eqn:Er; cbn [bind].
      + destruct S as (((r' & j) & m2') & -> & -> & S). cbn [bind]. destruct (dv_out_write dv i) eqn:Ew; [right; exact (Hwr _ Ew)|].
        eapply matches_bind; [apply IH; [exact S|]|].
        * left. apply (read_covered _ _ _ _ Er). destruct R as [R|(R & _)]; [left; exact (G4 R)|right].
          unfold mf_has_more in Eh. rewrite R in Eh. destruct (any_more dv 0 (mf_readers m)). injection Eh as <- _. reflexivity.
        * intros rs out ->. eexists. split; [reflexivity|]. reflexivity.
      + destruct S as [->|S]; cbn; auto.
      + destruct S as [->|S]; cbn; auto.
      + destruct S as [->|S]; cbn; auto.
      + cbn in S. rewrite S. reflexivity.
    - rewrite <- G2. exists []. split; reflexivity.
    - destruct (G3 R) as [X|(b & X)]; [right; exact X|discriminate].
  Qed.

  (** Merge. *)
  Context (Hopen : forall i, dv_sh_open dv i = true -> E) (Hclose : forall i, dv_sh_close dv i = true -> U).
  Context (Heo : dv_empty_open dv = true -> E) (Hec : forall c, dv_empty_close dv = Some c -> U).
  Context (Hoo : dv_out_open dv = true -> E) (Hoc : forall c, dv_out_close dv = Some c -> U).
  Lemma open_sim d names : forall i, match open_shards dv d i names with
    | inl l => ms_open d names = Ok (MSR l [])
    | inr _ => ms_open d names = Err NotFound \/ E
    end.
  Proof.
    unfold ms_open. induction names as [|n ns IH]; intros i; cbn [open_shards mapM]; [reflexivity|].
    destruct (dv_sh_open dv i) eqn:Eo; [right; exact (Hopen _ Eo)|]. destruct (d n) as [f|]; [|left; reflexivity]. cbn [bind].
    specialize (IH (S i)). destruct (open_shards dv d (S i) ns) as [l|j].
    - destruct (mapM _ ns) as [l'| | | |]; cbn [bind] in *; try discriminate. injection IH as ->. reflexivity.
    - destruct IH as [IH|IH]; [left|right; exact IH]. destruct (mapM _ ns) as [l'| | | |]; cbn [bind] in *; try discriminate. injection IH as ->. reflexivity.
  Qed.
  Lemma exists_close n : existsb (dv_sh_close dv) (seq 0 n) = true -> U.
  Proof. intros H. apply existsb_exists in H as (i & _ & H). exact (Hclose i H). Qed.
  Lemma merge_sim ties d shards out : let '(df, xf, dang) := merge_f K key ltb dv ties d shards out in
    (dang = true -> U) /\
    let '(d', o) := merge K key ltb ties d shards out in
    match xf with Ok _ => df = d' /\ o = Ok tt | Err c => dang = true \/ o = Err c \/ E | Crash => o = Crash \/ C | UB => o = UB \/ U | Diverge => o = Diverge end.
  Proof.
    assert (G : forall d0, let '(df, xf, dang) :=
      match open_shards dv d0 0 shards with
      | inr i => (d0, Err NotFound, existsb (dv_sh_close dv) (seq 0 i))
      | inl l =>
          if dv_out_open dv then (d0, Err NotFound, false)
          else let d1 := fs_set d0 out [] in
          if existsb (bytes_eqb out) shards then (d1, UB, false)
          else match mf_loop K key ltb dv (ms_fuel (MSR l [])) ties (MSF (map rd_new l) []) 0 with
               | Ok rs =>
                   match dv_out_close dv with
                   | Some c => (fs_set d1 out c, Err Internal, true)
                   | None =>
                       let d2 := fs_set d1 out (write_records rs) in
                       if existsb (dv_sh_close dv) (seq 0 (length shards)) then (d2, Err Internal, true) else (d2, Ok tt, false)
                   end
               | Err c => (fs_set d1 out (dv_torn dv), Err c, false)
               | Crash => (fs_set d1 out (dv_torn dv), Crash, false)
               | UB => (fs_set d1 out (dv_torn dv), UB, false)
               | Diverge => (fs_set d1 out (dv_torn dv), Diverge, false)
               end
      end in
      (dang = true -> U) /\
      let '(d', o) := match ms_open d0 shards with
        | Ok m =>
            let d1 := fs_set d0 out [] in
            if existsb (bytes_eqb out) shards then (d1, UB)
            else match ms_read_all K key ltb (ms_fuel m) ties m with
            | Ok rs => (fs_set d1 out (write_records (map fst rs)), Ok tt)
            | Err c => (d1, Err c)
            | Crash => (d1, Crash) | UB => (d1, UB) | Diverge => (d1, Diverge)
            end
        | Err c => (d0, Err c)
        | Crash => (d0, Crash) | UB => (d0, UB) | Diverge => (d0, Diverge)
        end in
      match xf with Ok _ => df = d' /\ o = Ok tt | Err c => dang = true \/ o = Err c \/ E | Crash => o = Crash \/ C | UB => o = UB \/ U | Diverge => o = Diverge end).
    { intros d0. pose proof (open_sim d0 shards 0) as S. destruct (open_shards dv d0 0 shards) as [l|j].
      - rewrite S. destruct (dv_out_open dv) eqn:Eoo.
        { split; [discriminate|]. cbv zeta. destruct (existsb (bytes_eqb out) shards); [auto|]. destruct (ms_read_all _ _ _ _ _ _); auto. }
        cbv zeta. destruct (existsb (bytes_eqb out) shards); [split; [discriminate|left; reflexivity]|].
        assert (R0 : Rm (MSF (map rd_new l) []) (MSR l [])).
        { split; [|reflexivity]. cbn. clear. induction l; constructor; auto. split; [reflexivity|]. split; discriminate. }
        assert (Rd : ready (MSF (map rd_new l) [])).
        { right. split; [reflexivity|]. cbn. clear. induction l; constructor; auto. repeat split. }
        pose proof (loop_sim (ms_fuel (MSR l [])) ties _ _ 0%nat R0 Rd) as G.
        destruct (mf_loop K key ltb dv (ms_fuel (MSR l [])) ties (MSF (map rd_new l) []) 0) as [rs|c| | |].
        + destruct G as (o & Eo & ->). rewrite Eo. destruct (dv_out_close dv) as [c|] eqn:Ec; [split; [intros _; exact (Hoc _ eq_refl)|left; reflexivity]|].
          destruct (existsb (dv_sh_close dv) (seq 0 (length shards))) eqn:Ex; [split; [intros _; exact (exists_close _ Ex)|left; reflexivity]|].
          split; [discriminate|]. split; reflexivity.
        + split; [discriminate|]. destruct G as [->|G]; [auto|]. destruct (ms_read_all _ _ _ _ _ _); auto.
        + split; [discriminate|]. destruct G as [->|G]; [auto|]. destruct (ms_read_all _ _ _ _ _ _); auto.
        + split; [discriminate|]. destruct G as [->|G]; [auto|]. destruct (ms_read_all _ _ _ _ _ _); auto.
        + split; [discriminate|]. unfold matches in G. rewrite G. reflexivity.
      - split; [apply exists_close|]. destruct S as [->|S]; [auto|]. destruct (ms_open d0 shards); cbv zeta; auto.
        destruct (existsb (bytes_eqb out) shards); [auto|]. destruct (ms_read_all _ _ _ _ _ _); auto. }
    unfold merge_f, merge. destruct shards as [|n ns]; [|exact (G d)].
    destruct (dv_empty_open dv) eqn:E1.
    { split; [discriminate|]. match goal with |- let '(_, _) := ?y in _ => destruct y as [d' o] end. auto. }
    destruct (dv_empty_close dv) as [c|] eqn:E2.
    { split; [intros _; exact (Hec _ eq_refl)|]. match goal with |- let '(_, _) := ?y in _ => destruct y as [d' o] end. auto. }
    exact (G (fs_set d out [])).
  Qed.
  Context (Hdel : forall i, dv_delete dv i = true -> E).
  Lemma delete_sim names : forall i d, let '(df, xf) := delete_f dv i d names in let '(d', o) := delete_all d names in
    match xf with Ok _ => df = d' /\ o = Ok tt | Err c => o = Err c \/ E | _ => False end.
  Proof.
    induction names as [|n ns IH]; intros i d; cbn [delete_f delete_all]; [auto|].
    destruct (dv_delete dv i) eqn:Ed; [match goal with |- let '(_, _) := ?y in _ => destruct y as [d' o] end; right; exact (Hdel _ Ed)|]. destruct (d n); [apply IH|auto].
  Qed.

  (** The sharding writer. *)
  Context (Hso : forall n, fl_open (dv_shard dv n) = true -> E) (Hsw : forall n x, fl_write (dv_shard dv n) = Some x -> E)
    (Hsc : forall n c, fl_close (dv_shard dv n) = Some c -> U).
  Definition told (s1 : sw) (xf o : outcome unit) : Prop :=
    match xf with
    | Ok _ => False
    | Err c => (dangling s1 = true /\ U) \/ (dangling s1 = false /\ (o = Err c \/ E))
    | Crash => o = Crash | UB => o = UB | Diverge => o = Diverge
    end.
  Lemma cache_sim s d n : sw_file s = PClosed -> let '(s1, d1, o1, _) := write_cache K key ltb s d (dv_shard dv n) in
    let '(s2, d2, o2, _) := write_cache K key ltb s d no_fault in
    (o1 = Ok tt /\ o2 = Ok tt /\ s1 = s2 /\ d1 = d2 /\ sw_file s1 = PClosed) \/ told s1 o1 o2.
  Proof.
    intros Hf. unfold write_cache. destruct (negb (sw_healthy s)).
    { right. right. split; [unfold dangling; rewrite Hf; reflexivity|left; reflexivity]. }
    destruct (sw_cache s) as [|r rs]; [left; auto|]. rewrite Hf. cbn [fl_open fl_write fl_close no_fault].
    pose proof (Hso n) as A. pose proof (Hsw n) as B. pose proof (Hsc n) as D. destruct (dv_shard dv n) as [fo fw fc]. cbn [fl_open fl_write fl_close] in *.
    destruct fo; [right; right; split; [reflexivity|right; exact (A eq_refl)]|].
    destruct fw as [[i c]|].
    - destruct (i <? length (sort_by K key ltb (r :: rs)))%nat.
      + destruct fc as [c'|]; right; [left; split; [reflexivity|exact (D _ eq_refl)]|right; split; [reflexivity|right; exact (B _ eq_refl)]].
      + destruct fc as [c'|]; [right; left; split; [reflexivity|exact (D _ eq_refl)]|left; auto].
    - destruct fc as [c'|]; [right; left; split; [reflexivity|exact (D _ eq_refl)]|left; auto].
  Qed.
  Lemma write_sim s d r n : sw_file s = PClosed -> let '(s1, d1, o1, _) := sw_write K key ltb mb s d r (dv_shard dv n) in
    let '(s2, d2, o2, _) := sw_write K key ltb mb s d r no_fault in
    (o1 = Ok tt /\ o2 = Ok tt /\ s1 = s2 /\ d1 = d2 /\ sw_file s1 = PClosed) \/ told s1 o1 o2.
  Proof.
    intros Hf. unfold sw_write. assert (Hd : dangling s = false) by (unfold dangling; rewrite Hf; reflexivity).
    destruct (negb (sw_open s)); [right; right; auto|]. destruct (negb (sw_healthy s)); [right; right; auto|].
    destruct (mb <? sw_bytes s); [|left; auto].
    pose proof (cache_sim s d n Hf) as G. destruct (write_cache K key ltb s d (dv_shard dv n)) as [[[s1 d1] o1] e1].
    destruct (write_cache K key ltb s d no_fault) as [[[s2 d2] o2] e2].
    destruct G as [(-> & -> & -> & -> & G)|G]; [left; auto|]. destruct o1; [destruct G|..].
    - destruct o2; right; [|exact G..]. destruct G as [G|(G1 & [G|G])]; [left; exact G|discriminate|right; auto].
    - cbn [told] in G. rewrite G. right. reflexivity.
    - cbn [told] in G. rewrite G. right. reflexivity.
    - cbn [told] in G. rewrite G. right. reflexivity.
  Qed.
  Definition reaches (xf : wst * outcome unit) (x : sd * outcome unit) : Prop :=
    let '((s1, d1, _), o1) := xf in let '((s2, d2), o2) := x in
    (o1 = Ok tt /\ o2 = Ok tt /\ s1 = s2 /\ d1 = d2 /\ sw_file s1 = PClosed) \/ told s1 o1 o2.
  Lemma write_all_sim rs : forall s d n, sw_file s = PClosed -> reaches (write_all_f K key ltb mb dv (s, d, n) rs) (write_all K key ltb mb (s, d) rs).
  Proof.
    induction rs as [|r rs IH]; intros s d n Hf; cbn [write_all_f write_all fst snd]; [left; auto|].
    pose proof (write_sim s d r n Hf) as G. destruct (sw_write K key ltb mb s d r (dv_shard dv n)) as [[[s1 d1] o1] e1].
    destruct (sw_write K key ltb mb s d r no_fault) as [[[s2 d2] o2] e2].
    destruct G as [(-> & -> & -> & -> & G)|G]; [apply IH; exact G|]. destruct o1 as [[]|c| | |]; [destruct G|..]; cbn [told] in G.
    - destruct o2 as [[]|c2| | |]; try (right; exact G). destruct (write_all K key ltb mb (s2, d2) rs) as [[s3 d3] o3].
      right. destruct G as [G|(G1 & [G|G])]; [left; exact G|discriminate|right; auto].
    - rewrite G. right. reflexivity.
    - rewrite G. right. reflexivity.
    - rewrite G. right. reflexivity.
  Qed.
  Lemma threads_sim res : forall s d n, sw_file s = PClosed -> reaches (write_threads_f K key ltb mb dv (s, d, n) res) (write_threads K key ltb mb (s, d) res).
  Proof.
    induction res as [|o res IH]; intros s d n Hf; cbn [write_threads_f write_threads]; [left; auto|].
    assert (Hd : dangling s = false) by (unfold dangling; rewrite Hf; reflexivity).
    destruct o as [rs|c| | |]; [|right; cbn; auto..].
    pose proof (write_all_sim rs s d n Hf) as G. destruct (write_all_f K key ltb mb dv (s, d, n) rs) as [[[s1 d1] n1] o1].
    destruct (write_all K key ltb mb (s, d) rs) as [[s2 d2] o2]. cbn [reaches] in G.
    destruct G as [(-> & -> & -> & -> & G)|G]; [apply IH; exact G|]. destruct o1 as [[]|c| | |]; [destruct G|..]; cbn [told] in G.
    - destruct o2 as [[]|c2| | |]; try (right; exact G). destruct (write_threads K key ltb mb (s2, d2) res) as [[s3 d3] o3].
      right. destruct G as [G|(G1 & [G|G])]; [left; exact G|discriminate|right; auto].
    - rewrite G. right. reflexivity.
    - rewrite G. right. reflexivity.
    - rewrite G. right. reflexivity.
  Qed.
  Context (transform : bytes -> outcome bytes) (chunk threads : nat).
  Context (Hin : forall n, dv_in dv n = true -> E).
  Lemma process_loop_sim fuel out : forall f r s d n, Rr r f -> sw_file s = PClosed -> 
    let xf := process_loop_f K key ltb mb dv transform chunk threads fuel out (f_has_more f) r (s, d, n) in
    let x := process_loop K key ltb mb transform chunk threads fuel out f (s, d) in
    reaches xf x \/ (snd xf = Crash /\ C) \/ (snd xf = UB /\ U).
  Proof.
    induction fuel as [|k IH]; intros f r s d n Hr Hf; cbn [process_loop_f process_loop]; [left; right; reflexivity|].
    assert (Hd : dangling s = false) by (unfold dangling; rewrite Hf; reflexivity).
    destruct (f_has_more f) eqn:Hm; [|left; left; auto].
    pose proof (chunk_sim (dv_in dv) Hin chunk r f Hr) as G. rewrite Hm in G.
    destruct (rf_chunk (dv_in dv) chunk true r) as [((ck & more') & r')|c| | |].
    - destruct G as ((l' & f') & -> & -> & -> & G). destruct (per_thread_size (length l') threads) as [pts|c| | |]; try (left; right; reflexivity).
      cbn [fst snd]. pose proof (threads_sim (thread_results transform threads l' pts) (sw_set_prefix s out) d n Hf) as T.
      destruct (write_threads_f _ _ _ _ _ _ _) as [[[s1 d1] n1] o1]. destruct (write_threads _ _ _ _ _ _) as [[s2 d2] o2]. cbn [reaches] in T.
      destruct T as [(-> & -> & -> & -> & T)|T]; [apply IH; assumption|left]. destruct o1 as [[]|c| | |]; [destruct T|..]; cbn [told] in T.
      + destruct o2 as [[]|c2| | |]; try (right; exact T). destruct (process_loop _ _ _ _ _ _ _ _ _ _ _) as [[s3 d3] o3].
        right. destruct T as [T|(T1 & [T|T])]; [left; exact T|discriminate|right; auto].
      + rewrite T. right. reflexivity.
      + rewrite T. right. reflexivity.
      + rewrite T. right. reflexivity.
    - left. destruct G as [->|G]; [right; right; auto|].
      match goal with |- reaches _ ?y => destruct y as [[s2 d2] o2] end. right. right. auto.
    - destruct G as [->|G]; [left; right; reflexivity|right; left; auto].
    - destruct G as [->|G]; [left; right; reflexivity|right; right; auto].
    - cbn in G. rewrite G. left. right. reflexivity.
  Qed.
  Context (Hio : dv_in_open dv = true -> E) (Hic : dv_in_close dv = true -> U).
  Lemma process_sim ties fuel d input output :
    let '(df, xf) := process_f K key ltb mb dv transform chunk threads ties fuel d input output in
    let '(d', o) := process_record_file K key ltb mb transform chunk threads ties fuel d input output in
    match xf with Ok _ => df = d' /\ o = Ok tt | Err c => o = Err c \/ E | Crash => o = Crash \/ C | UB => o = UB \/ U | Diverge => o = Diverge end.
  Proof.
    unfold process_f, process_record_file. destruct (dv_in_open dv) eqn:Eio.
    { match goal with |- let '(_, _) := ?y in _ => destruct y as [d' o] end. right. auto. }
    destruct (d input) as [c|]; [|left; reflexivity].
    assert (R0 : Rr (rd_new c) c) by (split; [reflexivity|]; split; discriminate).
    pose proof (has_more_sim (dv_in dv) Hin _ _ R0) as G. destruct (rd_has_more (dv_in dv) (rd_new c)) as [r h]. destruct G as [R1 G].
    destruct h as [b|e| | |]; try (destruct G; fail). 2:{ match goal with |- let '(_, _) := ?y in _ => destruct y as [d' o] end. right. exact G. }
    destruct G as [-> _].
    pose proof (process_loop_sim fuel output c r (sw_set_prefix sw_init output) d 0 R1 eq_refl) as P. cbv zeta in P.
    destruct (process_loop_f K key ltb mb dv transform chunk threads fuel output (f_has_more c) r (sw_set_prefix sw_init output, d, 0%nat)) as [[[s1 d1] n1] o1].
    destruct (process_loop K key ltb mb transform chunk threads fuel output c (sw_set_prefix sw_init output, d)) as [[s2 d2] o2].
    cbn [reaches snd] in P. destruct P as [[(-> & -> & -> & -> & P)|P]|P].
    - destruct (existsb (bytes_eqb input) (sw_shards s2)); [left; reflexivity|].
      destruct (dv_in_close dv) eqn:Eic.
      { cbn [unwind]. match goal with |- let '(_, _) := ?y in _ => destruct y as [d' o] end. right. auto. }
      unfold sw_close. destruct (negb (sw_open s2)).
      { cbn [unwind dangling sw_file]. rewrite P. left. reflexivity. }
      pose proof (cache_sim s2 d2 n1 P) as W. destruct (write_cache K key ltb s2 d2 (dv_shard dv n1)) as [[[s3 d3] o3] e3].
      destruct (write_cache K key ltb s2 d2 no_fault) as [[[s4 d4] o4] e4].
      destruct W as [(-> & -> & -> & -> & W)|W]; cbn [bind].
      + pose proof (merge_sim ties d4 (sw_shards s4) output) as M. destruct (merge_f K key ltb dv ties d4 (sw_shards s4) output) as [[d5 o5] dang].
        destruct (merge K key ltb ties d4 (sw_shards s4) output) as [d6 o6]. destruct M as [M1 M].
        destruct o5 as [[]|e5| | |]; cbn [unwind].
        * destruct M as [-> ->]. pose proof (delete_sim (sw_shards s4) 0 d6) as D. destruct (delete_f dv 0 d6 (sw_shards s4)) as [d7 o7].
          destruct (delete_all d6 (sw_shards s4)) as [d8 o8]. destruct o7; auto; destruct D.
        * destruct dang; [match goal with |- let '(_, _) := ?y in _ => destruct y as [d' o] end; right; auto|].
          destruct M as [M|[->|M]]; [discriminate|auto|]. match goal with |- let '(_, _) := ?y in _ => destruct y as [d' o] end; right; auto.
        * destruct M as [->|M]; [auto|]. match goal with |- let '(_, _) := ?y in _ => destruct y as [d' o] end; right; auto.
        * destruct M as [->|M]; [auto|]. match goal with |- let '(_, _) := ?y in _ => destruct y as [d' o] end; right; auto.
        * rewrite M. reflexivity.
      + destruct o3 as [[]|e5| | |]; [destruct W|..]; cbn [told bind unwind] in *.
        * replace (dangling _) with (dangling s3) by reflexivity. destruct W as [[W1 W2]|[W1 W2]]; rewrite W1.
          { match goal with |- let '(_, _) := ?y in _ => destruct y as [d' o] end; right; auto. }
          destruct W2 as [->|W2]; [left; reflexivity|]. match goal with |- let '(_, _) := ?y in _ => destruct y as [d' o] end; right; auto.
        * rewrite W. left. reflexivity.
        * rewrite W. left. reflexivity.
        * rewrite W. reflexivity.
    - destruct o1 as [[]|e5| | |]; [destruct P|..]; cbn [told unwind] in *.
      + destruct P as [[W1 W2]|[W1 W2]]; rewrite W1.
        { match goal with |- let '(_, _) := ?y in _ => destruct y as [d' o] end; right; auto. }
        destruct W2 as [->|W2]; [left; reflexivity|]. match goal with |- let '(_, _) := ?y in _ => destruct y as [d' o] end; right; auto.
      + rewrite P. left. reflexivity.
      + rewrite P. left. reflexivity.
      + rewrite P. reflexivity.
    - destruct P as [[-> P]|[-> P]]; cbn [unwind]; match goal with |- let '(_, _) := ?y in _ => destruct y as [d' o] end; right; auto.
  Qed.
End Sim.

(** Which files are touched. *)
Section Frame.
  Context {K : Type} (key : bytes -> K) (ltb : K -> K -> bool) (mb : Z) (dv : device) (out : bytes).
  Definition own (n : bytes) : Prop := n = out \/ exists i, n = out ++ dec (Z.of_nat i).
  Definition same (d d' : fs) : Prop := forall n, ~ own n -> d' n = d n.
  Lemma same_refl d : same d d. Proof. intros n _. reflexivity. Qed.
  Lemma same_trans d1 d2 d3 : same d1 d2 -> same d2 d3 -> same d1 d3.
  Proof. intros A B n H. rewrite (B n H). apply A, H. Qed.
  Lemma same_set d n c : own n -> same d (fs_set d n c).
  Proof. intros O m H. apply fs_set_neq. intros ->. exact (H O). Qed.
  Lemma same_del d n : own n -> same d (fs_del d n).
  Proof. intros O m H. unfold fs_del. destruct (bytes_eqb m n) eqn:E; [|reflexivity]. apply bytes_eqb_eq in E. subst. destruct (H O). Qed.
  Definition winv (s : sw) : Prop := sw_prefix s = out /\ (exists i, sw_idx s = Z.of_nat i /\ sw_fname s = out ++ dec (Z.of_nat i)) /\ Forall own (sw_shards s).

  Lemma cache_frame s d fl : winv s -> let '(s1, d1, _, _) := write_cache K key ltb s d fl in winv s1 /\ same d d1.
  Proof.
    intros (W1 & (i & W2 & W3) & W4). unfold write_cache. destruct (negb (sw_healthy s)); [split; [split; eauto|apply same_refl]|].
    destruct (sw_cache s) as [|r rs]; [split; [split; eauto|apply same_refl]|].
    destruct (match sw_file s with PClosed => fl_open fl | PDangling => true end); [split; [split; eauto|apply same_refl]|].
    match goal with |- context [match fl_write fl with Some _ => _ | None => _ end] => destruct (match fl_write fl with Some _ => _ | None => _ end) as [[c w] evs] end.
    destruct (match fl_close fl with Some _ => _ | None => _ end) as [c' cl].
    assert (O : own (sw_fname s)) by (right; eauto).
    split; [|apply same_set; exact O]. split; [exact W1|]. split.
    - exists (S i). cbn [sw_idx sw_fname]. rewrite W2, W1. unfold shard_name. replace (Z.of_nat i + 1) with (Z.of_nat (S i)) by lia. auto.
    - cbn [sw_shards]. apply Forall_app. split; [exact W4|]. constructor; [exact O|constructor].
  Qed.
  Lemma write_frame s d r fl : winv s -> let '(s1, d1, _, _) := sw_write K key ltb mb s d r fl in winv s1 /\ same d d1.
  Proof.
    intros W. unfold sw_write. destruct (negb (sw_open s)); [split; [exact W|apply same_refl]|]. destruct (negb (sw_healthy s)); [split; [exact W|apply same_refl]|].
    destruct (mb <? sw_bytes s); [|split; [destruct W as (A & B & D); split; [exact A|]; split; [exact B|exact D]|apply same_refl]].
    pose proof (cache_frame s d fl W) as G. destruct (write_cache K key ltb s d fl) as [[[s1 d1] o1] e1]. destruct G as [(A & B & D) G].
    destruct o1; (split; [split; [exact A|]; split; [exact B|exact D]|exact G]).
  Qed.
  Lemma write_all_frame rs : forall s d n, winv s -> let '((s1, d1, _), _) := write_all_f K key ltb mb dv (s, d, n) rs in winv s1 /\ same d d1.
  Proof.
    induction rs as [|r rs IH]; intros s d n W; cbn [write_all_f]; [split; [exact W|apply same_refl]|].
    pose proof (write_frame s d r (dv_shard dv n) W) as G. destruct (sw_write K key ltb mb s d r (dv_shard dv n)) as [[[s1 d1] o1] e1]. destruct G as [W1 G].
    destruct o1; [|split; assumption..]. specialize (IH s1 d1 (S n) W1). destruct (write_all_f K key ltb mb dv (s1, d1, S n) rs) as [[[s2 d2] n2] o2].
    destruct IH as [W2 G2]. split; [exact W2|exact (same_trans _ _ _ G G2)].
  Qed.
  Lemma threads_frame res : forall s d n, winv s -> let '((s1, d1, _), _) := write_threads_f K key ltb mb dv (s, d, n) res in winv s1 /\ same d d1.
  Proof.
    induction res as [|o res IH]; intros s d n W; cbn [write_threads_f]; [split; [exact W|apply same_refl]|].
    destruct o as [rs|c| | |]; [|split; [exact W|apply same_refl]..].
    pose proof (write_all_frame rs s d n W) as G. destruct (write_all_f K key ltb mb dv (s, d, n) rs) as [[[s1 d1] n1] o1]. destruct G as [W1 G].
    destruct o1; [|split; assumption..]. specialize (IH s1 d1 n1 W1). destruct (write_threads_f K key ltb mb dv (s1, d1, n1) res) as [[[s2 d2] n2] o2].
    destruct IH as [W2 G2]. split; [exact W2|exact (same_trans _ _ _ G G2)].
  Qed.
  Lemma prefix_winv s : winv s -> winv (sw_set_prefix s out).
  Proof. intros (A & (i & B1 & B2) & D). split; [reflexivity|]. split; [exists i; cbn; rewrite B1; auto|exact D]. Qed.
  Lemma process_loop_frame transform chunk threads fuel : forall more r s d n, winv s ->
    let '((s1, d1, _), _) := process_loop_f K key ltb mb dv transform chunk threads fuel out more r (s, d, n) in winv s1 /\ same d d1.
  Proof.
    induction fuel as [|k IH]; intros more r s d n W; cbn [process_loop_f]; [split; [exact W|apply same_refl]|].
    destruct more; [|split; [exact W|apply same_refl]].
    destruct (rf_chunk (dv_in dv) chunk true r) as [((ck & more') & r')|c| | |]; [|split; [exact W|apply same_refl]..].
    destruct (per_thread_size (length ck) threads) as [pts|c| | |]; [|split; [exact W|apply same_refl]..].
    pose proof (threads_frame (thread_results transform threads ck pts) (sw_set_prefix s out) d n (prefix_winv s W)) as G.
    destruct (write_threads_f K key ltb mb dv (sw_set_prefix s out, d, n) (thread_results transform threads ck pts)) as [[[s1 d1] n1] o1]. destruct G as [W1 G].
    destruct o1; [|split; assumption..]. specialize (IH more' r' s1 d1 n1 W1).
    destruct (process_loop_f K key ltb mb dv transform chunk threads k out more' r' (s1, d1, n1)) as [[[s2 d2] n2] o2].
    destruct IH as [W2 G2]. split; [exact W2|exact (same_trans _ _ _ G G2)].
  Qed.
  Lemma merge_frame ties d shards : let '(d1, _, _) := merge_f K key ltb dv ties d shards out in same d d1.
  Proof.
    assert (O : own out) by (left; reflexivity).
    unfold merge_f. assert (G : forall d0, same d d0 -> let '(d1, _, _) :=
      match open_shards dv d0 0 shards with
      | inr i => (d0, Err NotFound, existsb (dv_sh_close dv) (seq 0 i))
      | inl l =>
          if dv_out_open dv then (d0, Err NotFound, false)
          else let d1 := fs_set d0 out [] in
          if existsb (bytes_eqb out) shards then (d1, UB, false)
          else match mf_loop K key ltb dv (ms_fuel (MSR l [])) ties (MSF (map rd_new l) []) 0 with
               | Ok rs =>
                   match dv_out_close dv with
                   | Some c => (fs_set d1 out c, Err Internal, true)
                   | None =>
                       let d2 := fs_set d1 out (write_records rs) in
                       if existsb (dv_sh_close dv) (seq 0 (length shards)) then (d2, Err Internal, true) else (d2, Ok tt, false)
                   end
               | Err c => (fs_set d1 out (dv_torn dv), Err c, false)
               | Crash => (fs_set d1 out (dv_torn dv), Crash, false)
               | UB => (fs_set d1 out (dv_torn dv), UB, false)
               | Diverge => (fs_set d1 out (dv_torn dv), Diverge, false)
               end
      end in same d d1).
    { intros d0 S. destruct (open_shards dv d0 0 shards) as [l|j]; [|exact S]. destruct (dv_out_open dv); [exact S|]. cbv zeta.
      assert (S1 : same d (fs_set d0 out [])) by (eapply same_trans; [exact S|apply same_set; exact O]).
      assert (S2 : forall c, same d (fs_set (fs_set d0 out []) out c)) by (intros c; eapply same_trans; [exact S1|apply same_set; exact O]).
      destruct (existsb (bytes_eqb out) shards); [exact S1|]. destruct (mf_loop _ _ _ _ _ _ _ _); auto. destruct (dv_out_close dv); auto.
      destruct (existsb (dv_sh_close dv) (seq 0 (length shards))); auto. }
    destruct shards as [|n ns]; [|exact (G d (same_refl d))]. destruct (dv_empty_open dv); [apply same_refl|].
    destruct (dv_empty_close dv); [apply same_set; exact O|]. apply (G (fs_set d out [])). apply same_set. exact O.
  Qed.
  Lemma delete_frame names : forall i d, Forall own names -> let '(d1, _) := delete_f dv i d names in same d d1.
  Proof.
    induction names as [|n ns IH]; intros i d F; cbn [delete_f]; [apply same_refl|]. inversion F as [|? ? O F2]; subst. destruct (dv_delete dv i); [apply same_refl|].
    destruct (d n); [|apply same_refl]. specialize (IH (S i) (fs_del d n) F2). destruct (delete_f dv (S i) (fs_del d n) ns). eapply same_trans; [apply same_del; exact O|exact IH].
  Qed.
  Lemma process_frame transform chunk threads ties fuel d input :
    same d (fst (process_f K key ltb mb dv transform chunk threads ties fuel d input out)).
  Proof.
    unfold process_f. destruct (if dv_in_open dv then None else d input) as [c|]; [|apply same_refl]. destruct (rd_has_more (dv_in dv) (rd_new c)) as [r h].
    destruct h as [more|e| | |]; [|apply same_refl..].
    assert (W0 : winv (sw_set_prefix sw_init out)). { split; [reflexivity|]. split; [exists O; split; reflexivity|constructor]. }
    pose proof (process_loop_frame transform chunk threads fuel more r _ d 0 W0) as G.
    destruct (process_loop_f _ _ _ _ _ _ _ _ _ _ _ _ _) as [[[s1 d1] n1] o1]. destruct G as [W1 G].
    destruct o1; [|exact G..]. destruct (existsb (bytes_eqb input) (sw_shards s1)); [exact G|]. destruct (dv_in_close dv); [exact G|].
    unfold sw_close. destruct (negb (sw_open s1)); [exact G|].
    pose proof (cache_frame s1 d1 (dv_shard dv n1) W1) as G2. destruct (write_cache K key ltb s1 d1 (dv_shard dv n1)) as [[[s2 d2] o2] e2].
    destruct G2 as [W2 G2]. pose proof (same_trans _ _ _ G G2) as G3. destruct o2; cbn [bind]; [|exact G3..].
    pose proof (merge_frame ties d2 (sw_shards s2)) as G4. destruct (merge_f K key ltb dv ties d2 (sw_shards s2) out) as [[d3 o3] dang].
    pose proof (same_trans _ _ _ G3 G4) as G5. destruct o3; [|exact G5..].
    destruct W2 as (_ & _ & F). pose proof (delete_frame (sw_shards s2) 0 d3 F) as G6. destruct (delete_f dv 0 d3 (sw_shards s2)). eapply same_trans; [exact G5|exact G6].
  Qed.
End Frame.
