(** C64: a multi-file reader object over its whole life. *)
From Verif Require Import Base M_RecordIO L_RecordIO M_Shard L_Shard L_Merge M_File S_Shard S_File.
From Verif Require P_Shard.

Section Sim.
  Variable K : Type.
  Variable key : bytes -> K.
  Variable ltb : K -> K -> bool.

  (** An object all of whose files are open. *)
  Definition emb (m : msr) : mobj := MO (map ROpen (ms_readers m)) (ms_heap m).

  Lemma map_set_nth {A B} (g : A -> B) i x l : map g (set_nth i x l) = set_nth i (g x) (map g l).
  Proof. revert i. induction l as [|y l IH]; intros i; [destruct i; reflexivity|]. destruct i; cbn [set_nth map]; [reflexivity|rewrite IH; reflexivity]. Qed.
  Lemma read_at_ok f r f' : read_record f = Ok (r, f') -> read_record_at f = (Ok r, f').
  Proof.
    unfold read_record, extract_varint32, read_record_at. destruct (varint_loop 5 f) as [[[s t] q]| | | |]; cbn [bind]; try discriminate. destruct t; cbn [bind]; try discriminate.
    unfold f_read. destruct (Z.to_nat (read_varint32 s) <=? length q)%nat; [|discriminate]. intros E. injection E as <- <-. reflexivity.
  Qed.
  Lemma fill_ok m i m' : fill_from m i = Ok m' -> mo_fill (emb m) i = (emb m', Ok tt).
  Proof.
    unfold fill_from, mo_fill, emb. cbn [mo_readers mo_heap]. rewrite nth_error_map. destruct (nth_error (ms_readers m) i) as [f|]; [|discriminate]. cbn [option_map].
    destruct (f_has_more f); [|intros E; injection E as <-; reflexivity]. destruct (read_record f) as [[r f']| | | |] eqn:E; try discriminate. cbn [bind]. intros X. injection X as <-.
    rewrite (read_at_ok _ _ _ E). cbn [ms_readers ms_heap]. rewrite map_set_nth. reflexivity.
  Qed.
  Lemma fill_all_ok is : forall m m', fill_all m is = Ok m' -> mo_fill_all (emb m) is = (emb m', Ok tt).
  Proof.
    induction is as [|i is IH]; intros m m' E; [injection E as <-; reflexivity|]. cbn [fill_all] in E. destruct (fill_from m i) as [m1| | | |] eqn:E1; try discriminate. cbn [bind] in E.
    cbn [mo_fill_all]. rewrite (fill_ok _ _ _ E1). apply IH, E.
  Qed.
  Lemma read_ok t m r i m' : ms_read K key ltb t m = Ok (r, i, m') -> mo_read K key ltb t (emb m) = (emb m', Some (r, i), Ok tt).
  Proof.
    unfold ms_read, mo_read. intros E. assert (X : exists m1, (match mo_heap (emb m) with [] => mo_fill_all (emb m) (seq 0 (length (mo_readers (emb m)))) | _ :: _ => (emb m, Ok tt) end) = (emb m1, Ok tt) /\
      match heap_pop K key ltb t (ms_heap m1) with None => UB | Some (r0, i0, h) => let* m2 := fill_from (MSR (ms_readers m1) h) i0 in Ok (r0, i0, m2) end = Ok (r, i, m')).
    { cbn [emb mo_heap mo_readers]. rewrite map_length. destruct (ms_heap m) eqn:Eh.
      - destruct (fill_all m _) as [m1| | | |] eqn:Ef; try discriminate. cbn [bind] in E. exists m1. split; [|exact E]. pose proof (fill_all_ok _ _ _ Ef) as Q. unfold emb in Q at 1. rewrite Eh in Q. unfold emb at 1. rewrite Eh. exact Q.
      - cbn [bind] in E. exists m. split; [unfold emb; rewrite Eh; reflexivity|exact E]. }
    destruct X as (m1 & -> & X). cbn [emb mo_heap mo_readers]. destruct (heap_pop K key ltb t (ms_heap m1)) as [[[r0 i0] h]|]; [|discriminate].
    destruct (fill_from (MSR (ms_readers m1) h) i0) as [m2| | | |] eqn:E2; try discriminate. cbn [bind] in X. injection X as <- <- <-. cbn [snd].
    change (MO (map ROpen (ms_readers m1)) h) with (emb (MSR (ms_readers m1) h)). rewrite (fill_ok _ _ _ E2). reflexivity.
  Qed.
  Lemma has_more_emb m : mo_has_more (emb m) = Ok (ms_has_more m).
  Proof.
    unfold mo_has_more, ms_has_more, emb. cbn [mo_heap mo_readers]. destruct (ms_heap m); [|reflexivity]. induction (ms_readers m) as [|f fs IH]; [reflexivity|].
    cbn [map readers_have_more existsb]. destruct (f_has_more f); [reflexivity|exact IH].
  Qed.

  (** while (HasMore()) Read(&record, &index) on the object. *)
  Fixpoint drain (fuel : nat) (ties : nat -> nat) (m : mobj) : mobj * list (bytes * nat) * outcome unit :=
    match fuel with
    | O => (m, [], Diverge)
    | S k =>
        match mo_has_more m with
        | Ok true =>
            match mo_read K key ltb (ties O) m with
            | (m', Some e, Ok _) => let '(m'', out, r) := drain k (fun n => ties (S n)) m' in (m'', e :: out, r)
            | (m', _, r) => (m', [], match r with Ok _ => UB | _ => r end)
            end
        | Ok false => (m, [], Ok tt)
        | Err c => (m, [], Err c)
        | Crash => (m, [], Crash) | UB => (m, [], UB) | Diverge => (m, [], Diverge)
        end
    end.
  Lemma drain_ok fuel : forall ties m out, ms_read_all K key ltb fuel ties m = Ok out -> exists m', drain fuel ties (emb m) = (emb m', out, Ok tt) /\ length (ms_readers m') = length (ms_readers m).
  Proof.
    induction fuel as [|k IH]; intros ties m out E; [discriminate|]. cbn [ms_read_all drain] in *. rewrite has_more_emb. destruct (ms_has_more m).
    - destruct (ms_read K key ltb (ties O) m) as [[[r i] m1]| | | |] eqn:E1; try discriminate. cbn [bind] in E. destruct (ms_read_all K key ltb k _ m1) as [out1| | | |] eqn:E2; try discriminate. injection E as <-.
      rewrite (read_ok _ _ _ _ _ E1). destruct (IH _ _ _ E2) as (m' & -> & L'). exists m'. split; [reflexivity|]. rewrite L'.
      clear -E1. unfold ms_read in E1. 
      assert (F : forall m i m', fill_from m i = Ok m' -> length (ms_readers m') = length (ms_readers m)).
      { clear. intros m i m' E. unfold fill_from in E. destruct (nth_error (ms_readers m) i) as [f|]; [|discriminate]. destruct (f_has_more f); [|injection E as <-; reflexivity]. destruct (read_record f) as [[? ?]| | | |]; try discriminate. injection E as <-. cbn [ms_readers].
        generalize (ms_readers m). intros l. revert i. induction l as [|x l IH]; intros i; [destruct i; reflexivity|]. destruct i; cbn [set_nth length]; [reflexivity|rewrite IH; reflexivity]. }
      assert (G : forall is m m', fill_all m is = Ok m' -> length (ms_readers m') = length (ms_readers m)).
      { induction is as [|j is IH]; intros x x' E; [injection E as <-; reflexivity|]. cbn [fill_all] in E. destruct (fill_from x j) as [x1| | | |] eqn:Ex; try discriminate. rewrite (IH _ _ E). apply (F _ _ _ Ex). }
      match type of E1 with bind ?z _ = _ => destruct z as [mm| | | |] eqn:Em; try discriminate end. cbn [bind] in E1. destruct (heap_pop K key ltb (ties O) (ms_heap mm)) as [[[r0 i0] h]|]; [|discriminate].
      destruct (fill_from (MSR (ms_readers mm) h) i0) as [m2| | | |] eqn:E2; try discriminate. injection E1 as <- <- <-. rewrite (F _ _ _ E2). cbn [ms_readers].
      destruct (ms_heap m); [apply (G _ _ _ Em)|injection Em as <-; reflexivity].
    - injection E as <-. exists m. split; reflexivity.
  Qed.
  Lemma close_open_readers l i bad : (forall j, bad j = false) -> snd (close_readers bad i (map ROpen l)) = Ok tt.
  Proof. intros H. revert i. induction l as [|f l IH]; intros i; [reflexivity|]. cbn [map close_readers]. rewrite H. specialize (IH (S i)). destruct (close_readers bad (S i) (map ROpen l)). exact IH. Qed.
  Lemma open_readers_ok d miss bad names contents done : Forall2 (fun n c => miss n = false /\ d n = Some c) names contents -> open_readers d miss bad done names = (done ++ map ROpen contents, Ok tt).
  Proof.
    intros H. revert done. induction H as [|n c ns cs [H1 H2] H IH]; intros done; [cbn; rewrite app_nil_r; reflexivity|]. cbn [open_readers map]. rewrite H1, H2, IH, <- app_assoc. reflexivity.
  Qed.
End Sim.

(** A whole session on a fresh object: opening files of sorted records, reading until HasMore says no, closing.  The records come merged in key order, each
    file's in its own order, and the object is fresh again. *)
Theorem C64_session : forall (K : Type) (key : bytes -> K) ltb d miss bad0 names (rs : list (list bytes)) ties bad, strict_total ltb ->
  Forall (Forall (fun r : bytes => Z.of_nat (length r) < 2 ^ 32)) rs -> Forall (key_sorted key ltb) rs ->
  Forall2 (fun n r => miss n = false /\ d n = Some (write_records r)) names rs -> (forall i, bad i = false) ->
  exists m1 m2 out, mo_open mo_init d miss bad0 names = (m1, Ok tt) /\
    drain K key ltb (ms_fuel (MSR (map write_records rs) [])) ties m1 = (m2, out, Ok tt) /\
    (forall e, In e out -> (snd e < length rs)%nat) /\ (forall i, (i < length rs)%nat -> from_file i out = nth i rs []) /\ key_sorted key ltb (map fst out) /\
    mo_close m2 bad = (mo_init, Ok tt).
Proof.
  intros K key ltb d miss bad0 names rs ties bad HT H1 H2 H3 Hb. destruct (P_Shard.C09_multi_reader_merges K key ltb HT ties rs H1 H2) as (out & E & P1 & P2 & P3). cbv zeta in E.
  destruct (drain_ok K key ltb _ ties _ _ E) as (m' & D & _). exists (emb (MSR (map write_records rs) [])), (emb m'), out. split.
  - unfold mo_open, mo_init. cbn [mo_readers mo_heap]. rewrite (open_readers_ok d miss bad0 names (map write_records rs) []); [reflexivity|].
    clear -H3. induction H3; constructor; assumption.
  - split; [exact D|]. split; [exact P1|]. split; [exact P2|]. split; [exact P3|]. unfold mo_close, emb. cbn [mo_readers]. pose proof (close_open_readers (ms_readers m') 0 bad Hb) as Q. destruct (close_readers bad 0 _) as [q [[]| | | |]]; try discriminate. reflexivity.
Qed.
Print Assumptions C64_session.
(** Whatever was done before, an object whose Close succeeded behaves like a new one. *)
Theorem C64_close_resets : forall K key ltb m0 before bad after m1 rs m2, mo_run K key ltb m0 before = (m1, rs) -> mo_close m1 bad = (m2, Ok tt) ->
  mo_run K key ltb m0 (before ++ MClose bad :: after) = (fst (mo_run K key ltb mo_init after), rs ++ MUnit (Ok tt) :: snd (mo_run K key ltb mo_init after)).
Proof.
  intros K key ltb m0 before bad after m1 rs m2 E C. assert (E2 : m2 = mo_init). { unfold mo_close in C. destruct (close_readers bad 0 (mo_readers m1)) as [q [[]| | | |]]; try discriminate. injection C as <-. reflexivity. }
  revert m0 rs E. induction before as [|op before IH]; intros m0 rs E.
  - injection E as <- <-. cbn [app mo_run mo_step]. rewrite C. rewrite E2. destruct (mo_run K key ltb mo_init after). reflexivity.
  - cbn [app mo_run] in *. destruct (mo_step K key ltb m0 op) as [m' r]. destruct (mo_run K key ltb m' before) as [m'' rs'] eqn:E'. injection E as <- <-. rewrite (IH m' rs' E'). reflexivity.
Qed.
Print Assumptions C64_close_resets.

Definition all_open (rs : list rstate) : Prop := Forall (fun r => exists f, r = ROpen f) rs.
Lemma set_nth_open i f rs : all_open rs -> all_open (set_nth i (ROpen f) rs).
Proof. intros H. revert i. induction H as [|r rs Hr H IH]; intros i; [destruct i; constructor|]. destruct i; cbn [set_nth]; constructor; try (eexists; reflexivity); try assumption. apply IH. Qed.
Lemma set_nth_len {A} i (x : A) l : length (set_nth i x l) = length l.
Proof. revert i. induction l as [|y l IH]; intros i; [destruct i; reflexivity|]. destruct i; cbn [set_nth length]; [reflexivity|rewrite IH; reflexivity]. Qed.
Lemma fill_open m i m' r : all_open (mo_readers m) -> mo_fill m i = (m', r) -> all_open (mo_readers m') /\ length (mo_readers m') = length (mo_readers m).
Proof.
  intros H E. unfold mo_fill in E. destruct (nth_error (mo_readers m) i) as [q|] eqn:En; [|injection E as <- <-; split; [exact H|reflexivity]].
  destruct q as [|f|]; [injection E as <- <-; split; [exact H|reflexivity]| |injection E as <- <-; split; [exact H|reflexivity]].
  destruct (f_has_more f); [|injection E as <- <-; split; [exact H|reflexivity]]. destruct (read_record_at f) as [[x|c| | |] f']; injection E as <- <-; cbn [mo_readers]; rewrite ?set_nth_len; split; try exact H; try reflexivity; apply set_nth_open, H.
Qed.
Lemma fill_all_open is : forall m m' r, all_open (mo_readers m) -> mo_fill_all m is = (m', r) -> all_open (mo_readers m') /\ length (mo_readers m') = length (mo_readers m).
Proof.
  induction is as [|i is IH]; intros m m' r H E; [injection E as <- <-; split; [exact H|reflexivity]|]. cbn [mo_fill_all] in E. destruct (mo_fill m i) as [m1 r1] eqn:E1. destruct (fill_open _ _ _ _ H E1) as [A1 A2].
  destruct r1; try (injection E as <- <-; split; assumption). destruct (IH _ _ _ A1 E) as [B1 B2]. split; [exact B1|lia].
Qed.
Lemma read_open K key ltb t m m' e r : all_open (mo_readers m) -> mo_read K key ltb t m = (m', e, r) -> all_open (mo_readers m') /\ length (mo_readers m') = length (mo_readers m).
Proof.
  intros H E. unfold mo_read in E. destruct (match mo_heap m with [] => mo_fill_all m (seq 0 (length (mo_readers m))) | _ :: _ => (m, Ok tt) end) as [m1 r1] eqn:E1.
  assert (A : all_open (mo_readers m1) /\ length (mo_readers m1) = length (mo_readers m)) by (destruct (mo_heap m); [exact (fill_all_open _ _ _ _ H E1)|injection E1 as <- _; split; [exact H|reflexivity]]).
  destruct A as [A1 A2]. destruct r1; try (injection E as <- _ _; split; assumption). destruct (heap_pop K key ltb t (mo_heap m1)) as [[e1 h]|]; [|injection E as <- _ _; split; assumption].
  destruct (mo_fill (MO (mo_readers m1) h) (snd e1)) as [m2 r2] eqn:E2. injection E as <- _ _. destruct (fill_open (MO (mo_readers m1) h) _ _ _ A1 E2) as [B1 B2]. cbn [mo_readers] in B2. split; [exact B1|lia].
Qed.

Definition is_query (op : mop) : Prop := match op with MHasMore | MRead1 _ => True | _ => False end.
(** A second Open during a session is refused and disturbs nothing, and Close still works, whatever was read and whatever reading errors occurred. *)
Lemma session_open K key ltb d miss bad names m1 ops m2 rs : mo_open mo_init d miss bad names = (m1, Ok tt) -> Forall is_query ops ->
  mo_run K key ltb m1 ops = (m2, rs) -> all_open (mo_readers m2) /\ length (mo_readers m2) = length names.
Proof.
  intros E HQ R.
  assert (A : all_open (mo_readers m1) /\ length (mo_readers m1) = length names).
  { unfold mo_open, mo_init in E. cbn [mo_readers mo_heap] in E. destruct (open_readers d miss bad [] names) as [q r] eqn:Eo. injection E as <- ->. cbn [mo_readers].
    assert (G : forall names done q, all_open done -> open_readers d miss bad done names = (q, Ok tt) -> all_open q /\ length q = (length done + length names)%nat).
    { clear. induction names as [|n ns IH]; intros done q H E; [injection E as <-; split; [exact H|cbn; lia]|]. cbn [open_readers] in E. destruct (if miss n then None else d n) as [f|]; [|destruct (existsb bad _); discriminate].
      destruct (IH _ _ (proj2 (Forall_app _ _ _) (conj H (Forall_cons _ (ex_intro _ f eq_refl) (Forall_nil _)))) E) as [I1 I2]. split; [exact I1|]. rewrite app_length in I2. cbn [length] in *. lia. }
    destruct (G names [] q (Forall_nil _) Eo) as [G1 G2]. split; [exact G1|exact G2]. }
  assert (B : all_open (mo_readers m2) /\ length (mo_readers m2) = length (mo_readers m1)).
  { clear E. destruct A as [A _]. revert m1 rs A R. induction ops as [|op ops IH]; intros m1 rs A R; [injection R as <- <-; split; [exact A|reflexivity]|]. inversion HQ as [|? ? Q1 Q2]. subst.
    cbn [mo_run] in R. destruct (mo_step K key ltb m1 op) as [m' r] eqn:Es. destruct (mo_run K key ltb m' ops) as [m'' rs'] eqn:Er. injection R as <- <-.
    assert (X : all_open (mo_readers m') /\ length (mo_readers m') = length (mo_readers m1)).
    { destruct op as [| | |t]; try destruct Q1; cbn [mo_step] in Es; [injection Es as <- _; split; [exact A|reflexivity]|]. destruct (mo_read K key ltb t m1) as [[mm e] r0] eqn:Em. injection Es as <- _. exact (read_open _ _ _ _ _ _ _ _ A Em). }
    destruct X as [X1 X2]. destruct (IH Q2 _ _ X1 Er) as [Y1 Y2]. split; [exact Y1|lia]. }
  destruct B as [B1 B2], A as [A1 A2]. split; [exact B1|lia].
Qed.
Theorem C64_open_during_session : forall K key ltb d miss bad names m1 ops m2 rs d' miss' bad' names', names <> [] -> mo_open mo_init d miss bad names = (m1, Ok tt) -> Forall is_query ops ->
  mo_run K key ltb m1 ops = (m2, rs) ->
  mo_open m2 d' miss' bad' names' = (m2, Err Internal) /\ mo_close m2 (fun _ => false) = (mo_init, Ok tt).
Proof.
  intros K key ltb d miss bad names m1 ops m2 rs d' miss' bad' names' Hn E HQ R.
  destruct (session_open K key ltb d miss bad names m1 ops m2 rs E HQ R) as [B1 B2]. split.
  - unfold mo_open. destruct (mo_readers m2) eqn:Em; [|reflexivity]. cbn [length] in B2. destruct names; [contradiction|]. discriminate.
  - unfold mo_close. assert (G : forall l i, all_open l -> snd (close_readers (fun _ => false) i l) = Ok tt).
    { clear. intros l i H. revert i. induction H as [|x l (f & ->) H IH]; intros i; [reflexivity|]. cbn [close_readers]. specialize (IH (S i)). destruct (close_readers (fun _ => false) (S i) l). exact IH. }
    specialize (G _ 0%nat B1). destruct (close_readers (fun _ => false) 0 (mo_readers m2)) as [q [[]| | | |]]; try discriminate. reflexivity.
Qed.
Print Assumptions C64_open_during_session.

(** A Close during which an fclose fails reports it, and from then on every Open is refused. *)
Theorem C64_failed_close : forall K key ltb d miss bad0 names m1 ops m2 rs bad i, mo_open mo_init d miss bad0 names = (m1, Ok tt) -> Forall is_query ops ->
  mo_run K key ltb m1 ops = (m2, rs) -> (i < length names)%nat -> bad i = true ->
  exists m3, mo_close m2 bad = (m3, Err Internal) /\ forall d' miss' bad' names', mo_open m3 d' miss' bad' names' = (m3, Err Internal).
Proof.
  intros K key ltb d miss bad0 names m1 ops m2 rs bad i E HQ R Hi Hb. destruct (session_open K key ltb d miss bad0 names m1 ops m2 rs E HQ R) as [B1 B2].
  assert (G : forall l k, all_open l -> (k <= i < k + length l)%nat -> exists x q, close_readers bad k l = (x :: q, Err Internal)).
  { clear - Hb. intros l k H. revert k. induction H as [|x l (f & ->) H IH]; intros k L; cbn [length] in L; [lia|]. cbn [close_readers].
    destruct (bad k) eqn:Ek; [eauto|]. assert (k <> i) by congruence. destruct (IH (S k)) as (x & q & X); [lia|]. rewrite X. eauto. }
  destruct (G (mo_readers m2) 0%nat B1) as (x & q & X); [lia|]. unfold mo_close. rewrite X. eexists. split; [reflexivity|]. reflexivity.
Qed.
Print Assumptions C64_failed_close.

Definition mres_error (r : mres) : Prop := match r with MUnit (Err Internal) | MBool (Err Internal) | MRec None (Err Internal) => True | _ => False end.
(** That an object can be used again after a failed Open is false.  One missing file makes it useless for ever: every later call, Open of good files and Close
    included, returns an internal error. *)
Theorem C64_failed_open_is_final : forall K key ltb d miss bad names m c ops m' rs, (forall i, bad i = false) ->
  mo_open mo_init d miss bad names = (m, Err c) -> mo_run K key ltb m ops = (m', rs) ->
  c = NotFound /\ Forall mres_error rs.
Proof.
  intros K key ltb d miss bad names m c ops m' rs Hb E R.
  assert (A : c = NotFound /\ m = MO [RClosed] []).
  { unfold mo_open, mo_init in E. cbn [mo_readers mo_heap] in E.
    assert (G : forall names done, (exists q, open_readers d miss bad done names = (q, Ok tt)) \/ open_readers d miss bad done names = ([RClosed], Err NotFound)).
    { clear - Hb. induction names as [|n ns IH]; intros done; [left; eexists; reflexivity|]. cbn [open_readers]. destruct (if miss n then None else d n); [apply IH|]. right.
      replace (existsb bad (seq 1 (length done - 1))) with false; [destruct done; [reflexivity|rewrite Hb; reflexivity]|]. symmetry. apply not_true_is_false. intros X. apply existsb_exists in X as (i & _ & X). congruence. }
    destruct (G names []) as [(q & X)|X]; rewrite X in E; [discriminate|]. injection E as <- <-. split; reflexivity. }
  destruct A as [-> ->]. split; [reflexivity|]. revert m' rs R. induction ops as [|op ops IH]; intros m' rs R; [injection R as <- <-; constructor|].
  cbn [mo_run] in R. destruct op as [d' miss' bad' names'|bad'| |t]; cbn [mo_step mo_open mo_close mo_readers close_readers mo_heap mo_has_more readers_have_more mo_read mo_fill_all length seq mo_fill nth_error] in R;
    destruct (mo_run K key ltb (MO [RClosed] []) ops) as [m'' rs'] eqn:Er; injection R as <- <-; constructor; try exact I; eapply IH; reflexivity.
Qed.
Print Assumptions C64_failed_open_is_final.
(** If an fclose fails while such an Open closes the files again: with the first file's, Open reports the missing file, later Opens are refused, but asking for
    more records uses the released stream; with a later file's, Open itself destroys the reader that holds it. *)
Theorem C64_failed_clean_up_refuted : forall K key ltb (d : fs) a b c f g, d a = Some f -> d b = Some g -> d c = None ->
  snd (mo_run K key ltb mo_init [MOpen d (fun _ => false) (fun i => Nat.eqb i 0) [a; b; c]; MOpen d (fun _ => false) (fun _ => false) [a]; MHasMore]) =
    [MUnit (Err NotFound); MUnit (Err Internal); MBool UB] /\
  snd (mo_run K key ltb mo_init [MOpen d (fun _ => false) (fun i => Nat.eqb i 1) [a; b; c]]) = [MUnit UB].
Proof. intros K key ltb d a b c f g Ha Hb Hc. cbn. rewrite Ha, Hb, Hc. split; reflexivity. Qed.
Print Assumptions C64_failed_clean_up_refuted.
Theorem C64_reopen_refuted : exists d names good, (forall n, In n good -> d n <> None) /\ snd (mo_open mo_init d (fun _ => false) (fun _ => false) good) = Ok tt /\
  forall K key ltb, snd (mo_run K key ltb mo_init [MOpen d (fun _ => false) (fun _ => false) names; MClose (fun _ => false); MOpen d (fun _ => false) (fun _ => false) good]) = [MUnit (Err NotFound); MUnit (Err Internal); MUnit (Err Internal)].
Proof.
  exists (fs_set (fun _ => None) [x61] []), [[x61]; [x62]], [[x61]]. split; [intros n [<-|[]]; discriminate|]. split; reflexivity.
Qed.
Print Assumptions C64_reopen_refuted.
(** After a reading error the promise of ascending order is gone: with a damaged second file, the calls that succeed deliver "5" before "1" although both files
    are sorted.  And a Read that reports an error may have taken a record out of the reader: the caller finds it in *data only. *)
Theorem C64_order_after_error_refuted :
  (let d := fs_set (fs_set (fs_set (fun _ => None) [x61] (encode_record [x35])) [x62] [x05; x00]) [x63] (encode_record [x31]) in
   snd (mo_run bytes (fun r => r) bytes_ltb mo_init [MOpen d (fun _ => false) (fun _ => false) [[x61]; [x62]; [x63]]; MRead1 0; MHasMore; MRead1 0; MRead1 0; MHasMore]) =
     [MUnit (Ok tt); MRec None (Err Internal); MBool (Ok true); MRec (Some ([x35], 0%nat)) (Ok tt); MRec (Some ([x31], 2%nat)) (Ok tt); MBool (Ok false)]) /\
  (let d := fs_set (fun _ => None) [x61] (encode_record [x35] ++ [x05; x00]) in
   snd (mo_run bytes (fun r => r) bytes_ltb mo_init [MOpen d (fun _ => false) (fun _ => false) [[x61]]; MRead1 0; MHasMore]) =
     [MUnit (Ok tt); MRec (Some ([x35], 0%nat)) (Err Internal); MBool (Ok false)]).
Proof. split; vm_compute; reflexivity. Qed.
Print Assumptions C64_order_after_error_refuted.
Example C64_ex : let d := fs_set (fs_set (fun _ => None) [x61] (write_records [[x31]; [x35]])) [x62] (write_records [[x32]]) in
  snd (mo_run bytes (fun r => r) bytes_ltb mo_init [MOpen d (fun _ => false) (fun _ => false) [[x61]; [x62]]; MHasMore; MRead1 0; MOpen d (fun _ => false) (fun _ => false) [[x62]]; MRead1 0; MRead1 0; MHasMore; MClose (fun _ => false); MOpen d (fun _ => false) (fun _ => false) [[x62]]; MRead1 0]) =
  [MUnit (Ok tt); MBool (Ok true); MRec (Some ([x31], 0%nat)) (Ok tt); MUnit (Err Internal); MRec (Some ([x32], 1%nat)) (Ok tt); MRec (Some ([x35], 0%nat)) (Ok tt); MBool (Ok false); MUnit (Ok tt); MUnit (Ok tt); MRec (Some ([x32], 0%nat)) (Ok tt)].
Proof. vm_compute. reflexivity. Qed.
