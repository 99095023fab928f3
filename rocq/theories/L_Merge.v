(** Lemmas about the multi-file sorted reader and the merger. *)
From Verif Require Import Base M_RecordIO L_RecordIO M_Dec L_Dec M_Shard S_Shard L_Shard.

Lemma set_nth_length {A} n (x : A) l : length (set_nth n x l) = length l.
Proof. revert n; induction l as [|y l IH]; intros [|n]; cbn; auto. Qed.
Lemma set_nth_eq {A} n (x d : A) l : (n < length l)%nat -> nth n (set_nth n x l) d = x.
Proof. revert n; induction l as [|y l IH]; intros [|n] H; cbn in *; try lia; auto. apply IH. lia. Qed.
Lemma set_nth_neq {A} n m (x d : A) l : m <> n -> nth m (set_nth n x l) d = nth m l d.
Proof. revert n m; induction l as [|y l IH]; intros [|n] [|m] H; cbn in *; try lia; auto. Qed.
Lemma set_nth_map {A B} (f : A -> B) n x l : set_nth n (f x) (map f l) = map f (set_nth n x l).
Proof. revert n; induction l as [|y l IH]; intros [|n]; cbn; auto. rewrite IH. reflexivity. Qed.
Lemma set_nth_Forall {A} (P : A -> Prop) n x l : P x -> Forall P l -> Forall P (set_nth n x l).
Proof. intros Hx H. revert n; induction H; intros [|n]; cbn; constructor; auto. Qed.

Section L.
  Context {K : Type} (key : bytes -> K) (ltb : K -> K -> bool) (HO : strict_total ltb).
  Notation fill_from := (fill_from).
  Notation heap_pop := (heap_pop K key ltb).
  Notation ms_read := (ms_read K key ltb).
  Notation ms_read_all := (ms_read_all K key ltb).
  Notation ekey := (ekey K key).
  Notation le a b := (ltb b a = false).

  Lemma min_exists e h : exists x, In x (e :: h) /\ forall y, In y (e :: h) -> le (ekey x) (ekey y).
  Proof.
    induction h as [|a h (x & Hx & Hmin)].
    - exists e. split; [left; reflexivity|]. intros y [<-|[]]. apply HO.
    - destruct (ltb (ekey a) (ekey x)) eqn:E.
      + exists a. split; [right; left; reflexivity|].
        assert (Ha : le (ekey a) (ekey x)) by (apply (nlt_asym ltb HO); exact E).
        intros y [<-|[<-|Hy]]; [|apply HO|].
        * eapply (nlt_trans ltb HO); [exact Ha|]. apply Hmin. left; reflexivity.
        * eapply (nlt_trans ltb HO); [exact Ha|]. apply Hmin. right; exact Hy.
      + exists x. split; [destruct Hx; [left|right; right]; assumption|].
        intros y [<-|[<-|Hy]]; [apply Hmin; left; reflexivity|exact E|apply Hmin; right; exact Hy].
  Qed.

  Lemma pop_nth_some p t h e h' : pop_nth p t h = Some (e, h') ->
    p e = true /\ exists h1 h2, h = h1 ++ e :: h2 /\ h' = h1 ++ h2.
  Proof.
    revert t e h'; induction h as [|a h IH]; intros t e h' H; cbn in H; [discriminate|].
    destruct (p a) eqn:Pa.
    - destruct t as [|t].
      + injection H as <- <-. split; [exact Pa|]. exists [], h. auto.
      + destruct (pop_nth p t h) as [[x r]|] eqn:E; injection H as <- <-.
        * destruct (IH _ _ _ E) as (Px & h1 & h2 & -> & ->). split; [exact Px|]. exists (a :: h1), h2. auto.
        * split; [exact Pa|]. exists [], h. auto.
    - destruct (pop_nth p t h) as [[x r]|] eqn:E; [|discriminate]. injection H as <- <-.
      destruct (IH _ _ _ E) as (Px & h1 & h2 & -> & ->). split; [exact Px|]. exists (a :: h1), h2. auto.
  Qed.
  Lemma pop_nth_none p t h : pop_nth p t h = None -> forall e, In e h -> p e = false.
  Proof.
    revert t; induction h as [|a h IH]; intros t H e He; cbn in *; [contradiction|].
    destruct (p a) eqn:Pa.
    - destruct t as [|t]; [discriminate|]. destruct (pop_nth p t h) as [[x r]|]; discriminate.
    - destruct (pop_nth p t h) as [[x r]|] eqn:E; [discriminate|]. destruct He as [<-|He]; [exact Pa|]. eapply IH; eassumption.
  Qed.

  Lemma is_min_spec h e : is_min K key ltb h e = true <-> forall y, In y h -> le (ekey e) (ekey y).
  Proof.
    unfold is_min. rewrite forallb_forall. split; intros H y Hy; specialize (H y Hy);
      [apply negb_true_iff; exact H|apply negb_true_iff; exact H].
  Qed.

  Lemma heap_pop_spec t h : h <> [] -> exists e h1 h2, heap_pop t h = Some (e, h1 ++ h2) /\ h = h1 ++ e :: h2 /\
    forall y, In y h -> le (ekey e) (ekey y).
  Proof.
    intros Hn. unfold M_Shard.heap_pop. destruct (pop_nth (is_min K key ltb h) t h) as [[e h']|] eqn:E.
    - destruct (pop_nth_some _ _ _ _ _ E) as (P & h1 & h2 & -> & ->). exists e, h1, h2. split; [reflexivity|].
      split; [reflexivity|]. apply is_min_spec. exact P.
    - exfalso. destruct h as [|a h]; [congruence|]. destruct (min_exists a h) as (x & Hx & Hm).
      pose proof (pop_nth_none _ _ _ E x Hx) as F. apply is_min_spec in Hm. congruence.
  Qed.

  Lemma from_file_app i a b : from_file i (a ++ b) = from_file i a ++ from_file i b.
  Proof. unfold from_file. rewrite filter_app, map_app. reflexivity. Qed.
  Lemma from_file_cons i r j h : from_file i ((r, j) :: h) = if Nat.eqb j i then r :: from_file i h else from_file i h.
  Proof. unfold from_file. cbn. destruct (Nat.eqb j i); reflexivity. Qed.
  Lemma from_file_in i x h : In x (from_file i h) <-> In (x, i) h.
  Proof.
    unfold from_file. rewrite in_map_iff. split.
    - intros ([y j] & <- & H). apply filter_In in H. destruct H as (H & E). cbn in E. apply Nat.eqb_eq in E. subst. exact H.
    - intros H. exists (x, i). split; [reflexivity|]. apply filter_In. split; [exact H|]. apply Nat.eqb_refl.
  Qed.

  Definition settled i (h : list entry) (rest : list bytes) :=
    (from_file i h = [] /\ rest = []) \/ (exists r, from_file i h = [r]).
  Definition fresh i (h : list entry) := from_file i h = [].
  Definition pend i (h : list entry) (rs : list (list bytes)) := from_file i h ++ nth i rs [].

  Definition st (h : list entry) (rs : list (list bytes)) : msr := MSR (map write_records rs) h.

  Lemma nth_Forall_short i rs : Forall (Forall short) rs -> Forall short (nth i rs []).
  Proof.
    intros H. revert i; induction H as [|l ls Hl H IH]; intros [|i]; cbn; auto.
  Qed.
  Lemma nth_error_map_wr i rs : (i < length rs)%nat -> nth_error (map write_records rs) i = Some (write_records (nth i rs [])).
  Proof.
    revert i; induction rs as [|l ls IH]; intros [|i] H; cbn in *; try lia; auto. apply IH. lia.
  Qed.

  Definition total (h : list entry) (rs : list (list bytes)) : nat := (length h + length (concat rs))%nat.

  Lemma concat_set_nth (rs : list (list bytes)) i rest r : nth i rs [] = r :: rest -> (i < length rs)%nat ->
    length (concat rs) = S (length (concat (set_nth i rest rs))).
  Proof.
    revert i; induction rs as [|l ls IH]; intros [|i] E H; cbn in *; try lia.
    - subst l. cbn. rewrite !app_length. lia.
    - rewrite !app_length. rewrite (IH i E) by lia. lia.
  Qed.
  Lemma fill_from_spec h rs i : (i < length rs)%nat -> Forall (Forall short) rs -> fresh i h ->
    exists h' rs', fill_from (st h rs) i = Ok (st h' rs') /\ length rs' = length rs /\ Forall (Forall short) rs' /\
      settled i h' (nth i rs' []) /\ pend i h' rs' = pend i h rs /\
      (forall j, j <> i -> from_file j h' = from_file j h /\ nth j rs' [] = nth j rs []) /\
      (forall e, In e h' -> In e h \/ snd e = i) /\
      (nth i rs [] <> [] -> h' <> []) /\ total h' rs' = total h rs.
  Proof.
    intros Hi Hs Hf. unfold M_Shard.fill_from, st. cbn [ms_readers ms_heap]. rewrite nth_error_map_wr by exact Hi.
    destruct (nth i rs []) as [|r rest] eqn:E.
    - cbn [write_records flat_map f_has_more]. exists h, rs. split; [reflexivity|]. repeat split; auto; try tauto.
      left. auto.
    - pose proof (nth_Forall_short i rs Hs) as Hr. rewrite E in Hr. inversion Hr as [|? ? Hr1 Hr2]; subst.
      rewrite write_records_cons, has_more_encode, read_record_encode by exact Hr1. cbn [bind].
      exists ((r, i) :: h), (set_nth i rest rs).
      split; [rewrite set_nth_map; reflexivity|]. split; [apply set_nth_length|].
      split; [apply set_nth_Forall; assumption|].
      assert (F : from_file i ((r, i) :: h) = [r]) by (rewrite from_file_cons, Nat.eqb_refl, Hf; reflexivity).
      split; [right; exists r; exact F|].
      split; [unfold pend; rewrite F, set_nth_eq, Hf, E by exact Hi; reflexivity|].
      split; [|split; [|split]].
      + intros j Hj. rewrite from_file_cons, set_nth_neq by exact Hj.
        destruct (Nat.eqb_spec i j); [congruence|]. auto.
      + intros e [<-|He]; auto.
      + discriminate.
      + unfold total. cbn [length]. rewrite (concat_set_nth _ _ _ _ E Hi). lia.
  Qed.

  (** Filling all readers from an empty heap. *)
  Lemma fill_all_spec h rs k n : (k + n <= length rs)%nat -> Forall (Forall short) rs ->
    (forall i, (k <= i < k + n)%nat -> fresh i h) ->
    exists h' rs', fill_all (st h rs) (seq k n) = Ok (st h' rs') /\ length rs' = length rs /\ Forall (Forall short) rs' /\
      (forall i, (k <= i < k + n)%nat -> settled i h' (nth i rs' []) /\ pend i h' rs' = pend i h rs) /\
      (forall j, ~ (k <= j < k + n)%nat -> from_file j h' = from_file j h /\ nth j rs' [] = nth j rs []) /\
      (forall e, In e h' -> In e h \/ (snd e < length rs)%nat) /\ total h' rs' = total h rs.
  Proof.
    revert h rs k; induction n as [|n IH]; intros h rs k Hk Hs Hf; cbn [seq fill_all].
    - exists h, rs. split; [reflexivity|]. repeat split; auto; intros; lia.
    - destruct (fill_from_spec h rs k) as (h1 & rs1 & E & L & S1 & St & P & O & I & _ & T1); [lia|exact Hs|apply Hf; lia|].
      rewrite E. cbn [bind].
      destruct (IH h1 rs1 (S k)) as (h2 & rs2 & E2 & L2 & S2 & St2 & O2 & I2 & T2).
      + lia.
      + exact S1.
      + intros i Hi. unfold fresh. destruct (O i) as (-> & _); [lia|]. apply Hf. lia.
      + exists h2, rs2. split; [exact E2|]. split; [lia|]. split; [exact S2|]. split; [|split; [|split; [|congruence]]].
        * intros i Hi. destruct (Nat.eq_dec i k) as [->|Hne].
          -- destruct (O2 k) as (A & B); [lia|]. unfold settled, pend. rewrite A, B. split; [exact St|exact P].
          -- destruct (St2 i) as (A & B); [lia|]. split; [exact A|]. rewrite B. destruct (O i Hne) as (C & D).
             unfold pend. rewrite C, D. reflexivity.
        * intros j Hj. destruct (O2 j) as (A & B); [lia|]. rewrite A, B. apply O. lia.
        * intros e He. destruct (I2 e He) as [H|H]; [|right; lia]. destruct (I e H) as [G|G]; [left; exact G|right; lia].
  Qed.

  Record steady (h : list entry) (rs : list (list bytes)) : Prop := {
    sd_short : Forall (Forall short) rs;
    sd_settled : forall i, (i < length rs)%nat -> settled i h (nth i rs []);
    sd_idx : forall e, In e h -> (snd e < length rs)%nat;
    sd_sorted : forall i, (i < length rs)%nat -> key_sorted key ltb (pend i h rs) }.

  Lemma read_steady t h rs : steady h rs -> h <> [] ->
    exists r i h' rs', ms_read t (st h rs) = Ok (r, i, st h' rs') /\ (i < length rs)%nat /\ length rs' = length rs /\
      steady h' rs' /\ pend i h rs = r :: pend i h' rs' /\ (forall j, j <> i -> pend j h' rs' = pend j h rs) /\
      (forall j x, (j < length rs)%nat -> In x (pend j h' rs') -> le (key r) (key x)) /\
      total h rs = S (total h' rs').
  Proof.
    intros S Hn. unfold M_Shard.ms_read. unfold st at 1. cbn [ms_heap].
    assert (Hm : (match h with [] => fill_all (st h rs) (seq 0 (length (ms_readers (st h rs)))) | _ :: _ => Ok (st h rs) end) = Ok (st h rs))
      by (destruct h; [congruence|reflexivity]).
    rewrite Hm. clear Hm. cbn [bind]. change (ms_heap (st h rs)) with h. change (ms_readers (st h rs)) with (map write_records rs).
    destruct (heap_pop_spec t h Hn) as ([r i] & h1 & h2 & E & Eh & Hmin). rewrite E.
    assert (Hin : In (r, i) h) by (rewrite Eh; apply in_or_app; right; left; reflexivity).
    assert (Hi : (i < length rs)%nat) by (apply (sd_idx _ _ S (r, i)); exact Hin).
    assert (F1 : from_file i h = [r] /\ from_file i (h1 ++ h2) = []).
    { destruct (sd_settled _ _ S i Hi) as [(A & _)|(r' & A)].
      - exfalso. assert (In r (from_file i h)) by (apply from_file_in; exact Hin). rewrite A in H. exact H.
      - rewrite Eh in A. rewrite from_file_app, from_file_cons, Nat.eqb_refl in A.
        rewrite Eh, !from_file_app, from_file_cons, Nat.eqb_refl.
        destruct (from_file i h1) as [|y l1]; [|destruct l1; discriminate]. cbn in *. injection A as -> A. rewrite A. auto. }
    destruct F1 as (Fi & Fi').
    assert (Fj : forall j, j <> i -> from_file j (h1 ++ h2) = from_file j h).
    { intros j Hj. rewrite Eh, !from_file_app, from_file_cons. destruct (Nat.eqb_spec i j); [congruence|reflexivity]. }
    change {| ms_readers := map write_records rs; ms_heap := h1 ++ h2 |} with (st (h1 ++ h2) rs).
    destruct (fill_from_spec (h1 ++ h2) rs i Hi (sd_short _ _ S) Fi') as (h' & rs' & Ef & L & Ss & Stl & P & O & I & _ & Tot).
    rewrite Ef. cbn [bind]. exists r, i, h', rs'. split; [reflexivity|]. split; [exact Hi|]. split; [exact L|].
    assert (Pi : pend i h rs = r :: pend i h' rs').
    { rewrite P. unfold pend. rewrite Fi, Fi'. reflexivity. }
    assert (Pj : forall j, j <> i -> pend j h' rs' = pend j h rs).
    { intros j Hj. destruct (O j Hj) as (A & B). unfold pend. rewrite A, B, Fj by exact Hj. reflexivity. }
    split.
    { constructor.
      - exact Ss.
      - intros j Hj. rewrite L in Hj. destruct (Nat.eq_dec j i) as [->|Hne]; [exact Stl|].
        destruct (O j Hne) as (A & B). unfold settled. rewrite A, B, Fj by exact Hne. apply (sd_settled _ _ S). exact Hj.
      - intros e He. rewrite L. destruct (I e He) as [G| ->]; [|exact Hi].
        apply (sd_idx _ _ S). rewrite Eh. apply in_app_iff in G. apply in_app_iff. cbn. tauto.
      - intros j Hj. rewrite L in Hj. pose proof (sd_sorted _ _ S j Hj) as Q. destruct (Nat.eq_dec j i) as [->|Hne].
        + rewrite Pi in Q. inversion Q; assumption.
        + rewrite Pj by exact Hne. exact Q. }
    split; [exact Pi|]. split; [exact Pj|]. split.
    - intros j x Hj Hx. pose proof (sd_sorted _ _ S j Hj) as Q. destruct (Nat.eq_dec j i) as [->|Hne].
      + rewrite Pi in Q. inversion Q as [|? ? _ Q2]; subst. rewrite Forall_forall in Q2. apply Q2. exact Hx.
      + rewrite Pj in Hx by exact Hne. destruct (sd_settled _ _ S j Hj) as [(A & B)|(rj & A)].
        * unfold pend in Hx. rewrite A, B in Hx. contradiction.
        * assert (Hrj : In (rj, j) h) by (apply from_file_in; rewrite A; left; reflexivity).
          pose proof (Hmin _ Hrj) as M. cbn in M. unfold pend in Hx, Q. rewrite A in Hx, Q. cbn in Hx, Q.
          destruct Hx as [<-|Hx]; [exact M|]. eapply (nlt_trans ltb HO); [exact M|].
          inversion Q as [|? ? _ Q2]; subst. rewrite Forall_forall in Q2. apply Q2. exact Hx.
    - rewrite Tot. unfold total. rewrite Eh, !app_length. cbn. lia.
  Qed.

  Lemma read_all_steady fuel : forall ties h rs, steady h rs -> (total h rs < fuel)%nat ->
    exists out, ms_read_all fuel ties (st h rs) = Ok out /\
      (forall e, In e out -> (snd e < length rs)%nat) /\
      (forall i, (i < length rs)%nat -> from_file i out = pend i h rs) /\
      key_sorted key ltb (map fst out).
  Proof.
    induction fuel as [|k IH]; intros ties h rs S T; [lia|]. cbn [M_Shard.ms_read_all].
    destruct h as [|e0 h0] eqn:Eh.
    - assert (Z0 : forall i, (i < length rs)%nat -> nth i rs [] = []).
      { intros i Hi. destruct (sd_settled _ _ S i Hi) as [(_ & A)|(r & A)]; [exact A|discriminate]. }
      assert (Hm : ms_has_more (st [] rs) = false).
      { unfold ms_has_more, st. cbn [ms_heap ms_readers]. clear - Z0. induction rs as [|l ls IH]; [reflexivity|].
        cbn [map existsb]. pose proof (Z0 0%nat ltac:(cbn; lia)) as Z1. cbn in Z1. subst l. cbn.
        apply IH. intros i Hi. apply (Z0 (Datatypes.S i)). cbn. lia. }
      rewrite Hm. exists []. split; [reflexivity|]. split; [intros e []|]. split; [|constructor].
      intros i Hi. unfold pend. rewrite Z0 by exact Hi. reflexivity.
    - rewrite <- Eh in *. assert (Hne : h <> []) by (rewrite Eh; discriminate).
      assert (Hm : ms_has_more (st h rs) = true) by (rewrite Eh; reflexivity). rewrite Hm.
      destruct (read_steady (ties O) h rs S Hne) as (r & i & h' & rs' & E & Hi & L & S' & Pi & Pj & Hle & Tt).
      rewrite E. cbn [bind].
      assert (Tf : (total h' rs' < k)%nat) by lia.
      destruct (IH (fun n => ties (Datatypes.S n)) h' rs' S' Tf) as (out & Eo & I1 & I2 & I3).
      rewrite Eo. cbn [bind]. exists ((r, i) :: out). split; [reflexivity|]. split; [|split].
      + intros e [<-|He]; [exact Hi|]. rewrite <- L. apply I1. exact He.
      + intros j Hj. rewrite from_file_cons. rewrite I2 by lia. destruct (Nat.eqb_spec i j) as [<-|Hne2]; [symmetry; exact Pi|].
        apply Pj. congruence.
      + cbn [map fst]. constructor; [exact I3|]. apply Forall_forall. intros x Hx. apply in_map_iff in Hx.
        destruct Hx as ([y j] & <- & Hx). cbn. pose proof (I1 _ Hx) as Hj. cbn in Hj. rewrite L in Hj.
        apply (Hle j y Hj). rewrite <- I2 by lia. apply from_file_in. exact Hx.
  Qed.

  Lemma total_fuel rs : (length (concat rs) <= length (concat (map write_records rs)))%nat.
  Proof.
    induction rs as [|l ls IH]; cbn; [lia|]. rewrite !app_length.
    assert (length l <= length (write_records l))%nat; [|lia].
    clear. induction l as [|r l IH]; [cbn; lia|]. rewrite write_records_cons, app_length.
    destruct (encode_record_nonempty r) as (b & t & ->). cbn. lia.
  Qed.

  (** C09. *)
  Lemma multi_read ties rs : Forall (Forall short) rs -> Forall (key_sorted key ltb) rs ->
    let m := MSR (map write_records rs) [] in
    exists out, ms_read_all (ms_fuel m) ties m = Ok out /\
      (forall e, In e out -> (snd e < length rs)%nat) /\
      (forall i, (i < length rs)%nat -> from_file i out = nth i rs []) /\
      key_sorted key ltb (map fst out).
  Proof.
    intros Hs Hk m. change m with (st [] rs).
    destruct (fill_all_spec [] rs 0 (length rs)) as (h1 & rs1 & E & L & Ss & Stl & O & I & Tot); [lia|exact Hs|reflexivity|].
    assert (Sd : steady h1 rs1).
    { constructor.
      - exact Ss.
      - intros i Hi. apply Stl. lia.
      - intros e He. destruct (I e He) as [[]|G]. lia.
      - intros i Hi. destruct (Stl i) as (_ & ->); [lia|]. unfold pend. cbn.
        rewrite Forall_forall in Hk. apply Hk. apply nth_In. lia. }
    assert (Pd : forall i, (i < length rs)%nat -> pend i h1 rs1 = nth i rs []).
    { intros i Hi. destruct (Stl i) as (_ & ->); [lia|]. reflexivity. }
    destruct (ms_has_more (st [] rs)) eqn:Hm.
    - assert (Hne : h1 <> []).
      { intros ->. assert (Z0 : forall i, (i < length rs)%nat -> nth i rs [] = []).
        { intros i Hi. rewrite <- Pd by exact Hi. unfold pend. cbn.
          destruct (sd_settled _ _ Sd i ltac:(lia)) as [(_ & A)|(r & A)]; [exact A|discriminate]. }
        unfold ms_has_more, st in Hm. cbn [ms_heap ms_readers] in Hm. clear - Z0 Hm.
        induction rs as [|l ls IH]; [discriminate|].
        cbn [map existsb] in Hm. pose proof (Z0 0%nat ltac:(cbn; lia)) as Z1. cbn in Z1. subst l. cbn in Hm.
        apply IH; [exact Hm|]. intros i Hi. apply (Z0 (Datatypes.S i)). cbn. lia. }
      assert (Tt : (total h1 rs1 <= length (concat (map write_records rs)))%nat).
      { rewrite Tot. unfold total. cbn [length plus]. apply total_fuel. }
      destruct (read_all_steady (ms_fuel (st [] rs)) ties h1 rs1 Sd) as (out & Eo & I1 & I2 & I3).
      { unfold ms_fuel, st. cbn [ms_heap ms_readers length]. lia. }
      exists out. split; [|split; [intros e He; rewrite <- L; apply I1; exact He|split; [|exact I3]]].
      + unfold ms_fuel in *. cbn [M_Shard.ms_read_all] in *. rewrite Hm.
        assert (Hm1 : ms_has_more (st h1 rs1) = true) by (destruct h1; [congruence|reflexivity]). rewrite Hm1 in Eo.
        assert (R : forall t, ms_read t (st [] rs) = ms_read t (st h1 rs1)).
        { intros t. unfold M_Shard.ms_read. unfold st at 1 2 3 4. cbn [ms_heap ms_readers]. rewrite map_length.
          fold (st [] rs). rewrite E. destruct h1; [congruence|reflexivity]. }
        rewrite R. exact Eo.
      + intros i Hi. rewrite I2 by lia. apply Pd. exact Hi.
    - exists []. unfold ms_fuel. cbn [M_Shard.ms_read_all]. rewrite Hm. split; [reflexivity|].
      split; [intros e []|]. split; [|constructor].
      intros i Hi. cbn. unfold ms_has_more, st in Hm. cbn [ms_heap ms_readers] in Hm. clear - Hm Hi. 
      revert i Hi; induction rs as [|l ls IH]; intros i Hi; [cbn in Hi; lia|].
      cbn [map existsb] in Hm. apply orb_false_iff in Hm. destruct Hm as (H1 & H2).
      destruct l as [|r l]; [|rewrite write_records_cons, has_more_encode in H1; discriminate].
      destruct i as [|i]; [reflexivity|]. cbn. apply IH; [exact H2|cbn in Hi; lia].
  Qed.

  Lemma from_files_perm out n : (forall e, In e out -> (snd e < n)%nat) ->
    Permutation (map fst out) (concat (map (fun i => from_file i out) (seq 0 n))).
  Proof.
    revert out; induction n as [|n IH]; intros out H.
    - destruct out as [|e out]; [reflexivity|]. specialize (H e (or_introl eq_refl)). lia.
    - rewrite seq_S, map_app, concat_app. cbn [map concat]. rewrite app_nil_r, Nat.add_0_l.
      set (lo := filter (fun x : bytes * nat => negb (Nat.eqb (snd x) n)) out).
      assert (E1 : Permutation (map fst out) (map fst lo ++ from_file n out)).
      { unfold lo, from_file. clear. induction out as [|e out IH]; [reflexivity|]. cbn.
        destruct (Nat.eqb (snd e) n); cbn; [rewrite <- Permutation_middle|]; apply perm_skip; exact IH. }
      rewrite E1. apply Permutation_app_tail. rewrite (IH lo).
      + apply Permutation_refl'. f_equal. apply map_ext_in. intros i Hi. apply in_seq in Hi.
        unfold lo, from_file. clear - Hi. induction out as [|e out IH]; [reflexivity|]. cbn.
        destruct (Nat.eqb_spec (snd e) n) as [->|Hne]; cbn.
        * destruct (Nat.eqb_spec n i); [lia|]. exact IH.
        * destruct (Nat.eqb (snd e) i); cbn; [f_equal|]; exact IH.
      + intros e He. apply filter_In in He. destruct He as (He & Hn). specialize (H e He).
        destruct (Nat.eqb_spec (snd e) n); [discriminate|]. lia.
  Qed.

  Lemma concat_nth (rs : list (list bytes)) : concat (map (fun i => nth i rs []) (seq 0 (length rs))) = concat rs.
  Proof.
    f_equal. apply (nth_ext _ _ [] []); [rewrite map_length, seq_length; reflexivity|].
    intros i Hi. rewrite map_length, seq_length in Hi.
    rewrite (nth_indep _ [] (nth 0 rs [])) by (rewrite map_length, seq_length; exact Hi).
    rewrite (map_nth (fun i => nth i rs [])). rewrite seq_nth by exact Hi. reflexivity.
  Qed.

  Lemma multi_read_perm out rs : (forall e, In e out -> (snd e < length rs)%nat) ->
    (forall i, (i < length rs)%nat -> from_file i out = nth i rs []) -> Permutation (map fst out) (concat rs).
  Proof.
    intros H1 H2. rewrite (from_files_perm out (length rs) H1). rewrite <- (concat_nth rs).
    apply Permutation_refl'. f_equal. apply map_ext_in. intros i Hi. apply in_seq in Hi. apply H2. lia.
  Qed.

  (** C10. *)
  Lemma ms_open_ok d ns ls : Forall2 (fun n l => d n = Some (write_records l)) ns ls ->
    ms_open d ns = Ok (MSR (map write_records ls) []).
  Proof.
    intros H. unfold ms_open.
    assert (E : mapM (fun n => match d n with Some c => Ok c | None => Err NotFound end) ns = Ok (map write_records ls)).
    { apply mapM_ok. induction H as [|n l ns ls Hn H IH]; constructor; [rewrite Hn; reflexivity|exact IH]. }
    rewrite E. reflexivity.
  Qed.

  Lemma merge_ok ties d ns ls out :
    Forall2 (fun n l => d n = Some (write_records l)) ns ls ->
    Forall (Forall short) ls -> Forall (key_sorted key ltb) ls -> ~ In out ns ->
    exists d' rs, merge K key ltb ties d ns out = (d', Ok tt) /\
      d' out = Some (write_records rs) /\ key_sorted key ltb rs /\ Permutation rs (concat ls) /\
      (forall n, n <> out -> d' n = d n).
  Proof.
    intros F Hs Hk Hin. unfold merge.
    set (d0 := match ns with [] => fs_set d out [] | _ => d end).
    assert (D0 : forall n, n <> out -> d0 n = d n).
    { intros n Hn. unfold d0. destruct ns; [apply fs_set_neq; exact Hn|reflexivity]. }
    assert (F0 : Forall2 (fun n l => d0 n = Some (write_records l)) ns ls).
    { clearbody d0. clear - F Hin D0. induction F as [|n l ns ls Hn F IH]; constructor.
      - rewrite D0; [exact Hn|]. intros ->. apply Hin. left. reflexivity.
      - apply IH. intros G. apply Hin. right. exact G. }
    rewrite (ms_open_ok _ _ _ F0).
    assert (Ex : existsb (bytes_eqb out) ns = false).
    { clear - Hin. induction ns as [|n ns IH]; [reflexivity|]. cbn.
      destruct (bytes_eqb out n) eqn:E; [apply bytes_eqb_eq in E; subst; exfalso; apply Hin; left; reflexivity|].
      apply IH. intros G. apply Hin. right. exact G. }
    rewrite Ex. destruct (multi_read ties ls Hs Hk) as (o & Eo & I1 & I2 & I3). rewrite Eo.
    do 2 eexists. split; [reflexivity|]. split; [apply fs_set_eq|]. split; [exact I3|].
    split; [apply multi_read_perm; assumption|]. intros n Hn. rewrite !fs_set_neq by exact Hn. apply D0. exact Hn.
  Qed.

  Lemma delete_all_ok d ns : NoDup ns -> (forall n, In n ns -> d n <> None) ->
    exists d', delete_all d ns = (d', Ok tt) /\ (forall n, In n ns -> d' n = None) /\ (forall n, ~ In n ns -> d' n = d n).
  Proof.
    intros N. revert d; induction N as [|n ns Hn N IH]; intros d H; cbn [delete_all].
    - exists d. split; [reflexivity|]. split; [intros n []|auto].
    - destruct (d n) eqn:E; [|exfalso; apply (H n); [left; reflexivity|exact E]].
      assert (Dl : forall m, m <> n -> fs_del d n m = d m).
      { intros m Hm. unfold fs_del. destruct (bytes_eqb m n) eqn:Q; [apply bytes_eqb_eq in Q; congruence|reflexivity]. }
      destruct (IH (fs_del d n)) as (d' & E1 & E2 & E3).
      { intros m Hm. rewrite Dl; [apply H; right; exact Hm|]. intros ->. contradiction. }
      exists d'. split; [exact E1|]. split.
      + intros m [<-|Hm]; [|apply E2; exact Hm]. rewrite E3 by exact Hn. unfold fs_del. rewrite bytes_eqb_refl. reflexivity.
      + intros m Hm. cbn in Hm. rewrite E3 by tauto. apply Dl. intros ->. tauto.
  Qed.
End L.
