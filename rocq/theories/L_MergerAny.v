(** Lemmas for C104: merging any files that can be read to their ends. *)
From Verif Require Import Base M_RecordIO L_RecordIO S_RecordIO M_Dec M_Shard S_Shard L_Shard L_Merge M_File P_Multi M_Merger L_Merger L_Process L_ProcessAny.
From Verif Require P_Shard.

(** Two readers that have the same records before them, the second on a file as a writer makes it. *)
Definition like (q q2 : rstate) : Prop := exists f l, q = ROpen f /\ q2 = ROpen (write_records l) /\ read_records f = (l, Ok tt) /\ Forall short l.
Definition rel (m m2 : mobj) : Prop := Forall2 like (mo_readers m) (mo_readers m2) /\ mo_heap m = mo_heap m2.

Lemma like_length a b : Forall2 like a b -> length a = length b.
Proof. induction 1; cbn; congruence. Qed.
Lemma nth_like a b i : Forall2 like a b -> (nth_error a i = None /\ nth_error b i = None) \/ exists x y, nth_error a i = Some x /\ nth_error b i = Some y /\ like x y.
Proof. intros F. revert i. induction F as [|x y a b H F IH]; intros [|i]; cbn; auto. right. eauto. Qed.
Lemma set_like a b i x y : Forall2 like a b -> like x y -> Forall2 like (set_nth i x a) (set_nth i y b).
Proof. intros F. revert i. induction F as [|p q a b H F IH]; intros [|i] L; cbn [set_nth]; constructor; auto. Qed.
Lemma like_more a b : Forall2 like a b -> readers_have_more a = readers_have_more b.
Proof.
  induction 1 as [|x y a b (f & l & -> & -> & R & S) F IH]; [reflexivity|]. cbn [readers_have_more]. rewrite IH, more_write.
  destruct (records_cases f l _ R) as [(H & -> & _)|[(H & r & f' & l' & _ & -> & _)|(_ & _ & N & _)]]; [rewrite H; reflexivity..|contradiction].
Qed.
Lemma fill_rel m m2 i : rel m m2 -> exists m' m2' o, mo_fill m i = (m', o) /\ mo_fill m2 i = (m2', o) /\ rel m' m2'.
Proof.
  intros [F H]. unfold mo_fill. destruct (nth_like _ _ i F) as [[-> ->]|(x & y & -> & -> & f & l & -> & -> & R & S)]; [do 3 eexists; split; [reflexivity|]; split; [reflexivity|]; split; assumption|].
  rewrite more_write. destruct (records_cases f l _ R) as [(Hm & -> & _)|[(Hm & r & f' & l' & E & -> & R')|(_ & _ & N & _)]]; [rewrite Hm; do 3 eexists; split; [reflexivity|]; split; [reflexivity|]; split; assumption| |contradiction].
  rewrite Hm, (read_at_ok _ _ _ E). inversion S as [|? ? S1 S2]; subst.
  assert (E2 : read_record (write_records (r :: l')) = Ok (r, write_records l')) by (rewrite write_records_cons; apply read_record_encode; exact S1).
  rewrite (read_at_ok _ _ _ E2). do 3 eexists. split; [reflexivity|]. split; [reflexivity|]. split; cbn [mo_readers mo_heap]; [|f_equal; exact H].
  apply set_like; [exact F|]. exists f', l'. auto.
Qed.
Lemma fill_all_rel is : forall m m2, rel m m2 -> exists m' m2' o, mo_fill_all m is = (m', o) /\ mo_fill_all m2 is = (m2', o) /\ rel m' m2'.
Proof.
  induction is as [|i is IH]; intros m m2 R; cbn [mo_fill_all]; [eauto 6|]. destruct (fill_rel m m2 i R) as (m' & m2' & o & -> & -> & R'). destruct o; [apply IH; exact R'|eauto 6..].
Qed.

Section MergerAny.
  Context {K : Type} (key : bytes -> K) (ltb : K -> K -> bool).
  Notation drain := (drain K key ltb).
  Lemma read_rel t m m2 : rel m m2 -> exists m' m2' e o, mo_read K key ltb t m = (m', e, o) /\ mo_read K key ltb t m2 = (m2', e, o) /\ rel m' m2'.
  Proof.
    intros R. unfold mo_read.
    assert (X : exists m1 m3 o, (match mo_heap m with [] => mo_fill_all m (seq 0 (length (mo_readers m))) | _ :: _ => (m, Ok tt) end) = (m1, o) /\
      (match mo_heap m2 with [] => mo_fill_all m2 (seq 0 (length (mo_readers m2))) | _ :: _ => (m2, Ok tt) end) = (m3, o) /\ rel m1 m3).
    { pose proof R as [F H]. rewrite <- H, <- (like_length _ _ F). destruct (mo_heap m); [apply fill_all_rel; exact R|exists m, m2, (Ok tt); auto]. }
    destruct X as (m1 & m3 & o & -> & -> & [F1 H1]). destruct o; [|do 4 eexists; split; [reflexivity|]; split; [reflexivity|split; assumption]..].
    rewrite <- H1. destruct (heap_pop K key ltb t (mo_heap m1)) as [[e h]|]; [|do 4 eexists; split; [reflexivity|]; split; [reflexivity|split; assumption]].
    destruct (fill_rel (MO (mo_readers m1) h) (MO (mo_readers m3) h) (snd e)) as (m' & m2' & o & -> & -> & R'); [split; [exact F1|reflexivity]|]. eauto 10.
  Qed.
  Lemma drain_rel fuel : forall ties m m2, rel m m2 -> exists m' m2' out r, drain fuel ties m = (m', out, r) /\ drain fuel ties m2 = (m2', out, r) /\ rel m' m2'.
  Proof.
    induction fuel as [|k IH]; intros ties m m2 R; cbn [P_Multi.drain]; [eauto 10|].
    assert (Hm : mo_has_more m = mo_has_more m2). { destruct R as [F H]. unfold mo_has_more. rewrite <- H, (like_more _ _ F). reflexivity. }
    rewrite <- Hm. destruct (mo_has_more m) as [[|]| | | |]; [|eauto 10..].
    destruct (read_rel (ties O) m m2 R) as (m1 & m3 & e & o & -> & -> & R1). destruct e as [e|]; [|eauto 10]. destruct o as [u| | | |]; [|eauto 10..].
    destruct (IH (fun n => ties (S n)) m1 m3 R1) as (m' & m2' & out & r & -> & -> & R'). eauto 10.
  Qed.
  Lemma drain_more k : forall k' ties m m' out, drain k ties m = (m', out, Ok tt) -> (length out < k')%nat -> drain k' ties m = (m', out, Ok tt).
  Proof.
    induction k as [|k IH]; intros k' ties m m' out E L; [discriminate|]. destruct k' as [|k']; [lia|]. cbn [P_Multi.drain] in *. destruct (mo_has_more m) as [[|]| | | |]; try discriminate; [|exact E].
    destruct (mo_read K key ltb (ties O) m) as [[m1 e] o]. destruct e as [e|]; [|destruct o; discriminate]. destruct o as [u| | | |]; try discriminate.
    destruct (drain k (fun n => ties (S n)) m1) as [[ma oa] ra] eqn:E1. injection E as <- <- ->. cbn [length] in L. rewrite (IH k' _ _ _ _ E1) by lia. reflexivity.
  Qed.
  Lemma records_length f : forall l e, read_records f = (l, e) -> (length l <= length f)%nat.
  Proof.
    assert (G : forall n f l e, (length f <= n)%nat -> read_records f = (l, e) -> (length l <= length f)%nat); [|intros l e; apply (G (length f)); lia].
    clear f. induction n as [|n IH]; intros f l e Hn E; destruct (records_cases f l e E) as [(_ & -> & _)|[(_ & r & f' & l' & R & -> & E')|(_ & -> & _)]]; cbn [length]; try lia; pose proof (read_record_shrinks _ _ _ R); [lia|].
    pose proof (IH f' l' e ltac:(lia) E'). lia.
  Qed.
  Hypothesis HO : strict_total ltb.
  Lemma session_any ties (fs : list bytes) (ls : list (list bytes)) : Forall2 (fun f l => read_records f = (l, Ok tt)) fs ls -> Forall (Forall short) ls -> Forall (key_sorted key ltb) ls ->
    exists m' rs, drain (mo_fuel (MO (map ROpen fs) [])) ties (MO (map ROpen fs) []) = (emb m', rs, Ok tt) /\
      key_sorted key ltb (map fst rs) /\ Permutation (map fst rs) (concat ls).
  Proof.
    intros F S Q. destruct (session key ltb HO ties ls S Q) as (m2 & rs & D & P1 & P2).
    assert (R : rel (MO (map ROpen fs) []) (MO (map ROpen (map write_records ls)) [])).
    { split; [|reflexivity]. cbn [mo_readers]. clear - F S. induction F as [|f l fs ls H F IH]; [constructor|]. inversion S; subst. constructor; [exists f, l; auto|apply IH; assumption]. }
    destruct (drain_rel (ms_fuel (MSR (map write_records ls) [])) ties _ _ R) as (m' & m2' & out & r & D1 & D2 & R'). rewrite D in D2. injection D2 as <- <- <-.
    assert (L : (length rs < mo_fuel (MO (map ROpen fs) []))%nat).
    { rewrite <- (map_length fst), (Permutation_length P2). unfold mo_fuel. cbn [mo_heap mo_readers length]. apply le_n_S. cbn [plus]. clear - F. induction F as [|f l fs ls H F IH]; [cbn; lia|]. cbn [map concat]. rewrite !app_length. pose proof (records_length f l _ H). lia. }
    assert (X : exists gs, mo_readers m' = map ROpen gs).
    { destruct R' as [F' _]. clear - F'. induction F' as [|x y a b (f & l & -> & _) F IH]; [exists []; reflexivity|]. destruct IH as (gs & ->). exists (f :: gs). reflexivity. }
    destruct X as (gs & X). exists (MSR gs (mo_heap m')), rs. split; [|split; assumption]. unfold emb. cbn [ms_readers ms_heap]. rewrite <- X. destruct m' as [a b]. cbn [mo_readers mo_heap]. exact (drain_more _ _ _ _ _ _ D1 L).
  Qed.

  Lemma merge_complete_any ties dv (d : fs) shards (fls : list bytes) (ls : list (list bytes)) out g' d' :
    Forall2 (fun n (f : bytes) => d n = Some f) shards fls -> Forall2 (fun f l => read_records f = (l, Ok tt)) fls ls -> Forall (Forall short) ls -> Forall (key_sorted key ltb) ls -> ~ In out shards ->
    mg_merge K key ltb ties dv mg_init d shards out = (g', d', Ok tt) ->
    exists rs, d' out = Some (write_records rs) /\ key_sorted key ltb rs /\ Permutation rs (concat ls) /\ forall n, n <> out -> d' n = d n.
  Proof.
    intros F FL B S N E. unfold M_Merger.mg_merge in E. set (oo := mg_open_out dv mg_init out) in E. change (mg_reader mg_init) with mo_init in E.
    assert (O : forall x y, oo x = (y, Ok tt) -> forall n, n <> out -> y n = x n). { intros x y X n Hn. unfold oo, mg_open_out in X. cbn [mg_out mg_init] in X. destruct (md_out_open dv); [discriminate|]. injection X as <-. apply fs_set_neq, Hn. }
    destruct (match shards with [] => oo d | _ => (d, Ok tt) end) as [d0 e] eqn:E0. destruct e as [[]| | | |]; try discriminate.
    assert (H0 : forall n, n <> out -> d0 n = d n). { destruct shards; [exact (O _ _ E0)|injection E0 as <-; reflexivity]. }
    assert (F0 : Forall2 (fun n (l : bytes) => d0 n = Some l) shards fls).
    { clear - F H0 N. induction F as [|n l ns lls H F IH]; [constructor|]. constructor; [rewrite H0; [exact H|intros ->; apply N; left; reflexivity]|]. apply IH. intros I. apply N. right. exact I. }
    destruct (mo_open mo_init d0 (md_miss dv) (fun _ => false) shards) as [m1 r] eqn:Em. unfold mo_open in Em. cbn [mo_readers mo_heap mo_init] in Em.
    destruct (open_readers d0 (md_miss dv) (fun _ => false) [] shards) as [q r'] eqn:Eo. injection Em as <- <-. destruct r' as [[]| | | |]; try discriminate.
    rewrite (open_missed _ _ _ _ _ _ _ F0 Eo) in E. cbn [app] in E. destruct (oo d0) as [d1 o] eqn:E1. destruct o as [[]| | | |]; try discriminate. rewrite (not_in_existsb _ _ N) in E.
    destruct (session_any ties fls ls FL B S) as (m' & rs & D & P1 & P2).
    destruct (mg_loop _ _ _ _ _ _ _ _) as [[m2 o2] r2] eqn:El in E. destruct r2 as [[]| | | |]; try discriminate. destruct (loop_drain key ltb _ _ _ _ _ _ _ _ _ El D) as [-> ->].
    rewrite close_emb in E. injection E as _ <-. exists (map fst rs). split; [apply fs_set_eq|]. split; [exact P1|]. split; [exact P2|]. intros n Hn. rewrite fs_set_neq, (O _ _ E1), H0; auto.
  Qed.
  Lemma merge_succeeds_any ties dv (d : fs) shards (fls : list bytes) (ls : list (list bytes)) out :
    Forall2 (fun n (f : bytes) => d n = Some f) shards fls -> Forall2 (fun f l => read_records f = (l, Ok tt)) fls ls -> Forall (Forall short) ls -> Forall (key_sorted key ltb) ls -> ~ In out shards ->
    (forall n, md_miss dv n = false) -> md_out_open dv = false -> (forall i, md_write dv i = false) ->
    exists d', mg_merge K key ltb ties dv mg_init d shards out = (mg_init, d', Ok tt).
  Proof.
    intros F FL B S N M1 M2 M3. unfold M_Merger.mg_merge, mg_open_out. cbn [mg_out mg_init mg_reader]. rewrite M2. set (d0 := match shards with [] => fs_set d out [] | _ => d end).
    replace (match shards with [] => (fs_set d out [], Ok tt) | _ => (d, Ok tt) end) with (d0, @Ok unit tt) by (unfold d0; destruct shards; reflexivity).
    assert (H0 : forall n, n <> out -> d0 n = d n). { unfold d0. destruct shards; intros n Hn; [apply fs_set_neq, Hn|reflexivity]. }
    assert (F0 : Forall2 (fun n (l : bytes) => md_miss dv n = false /\ d0 n = Some l) shards fls).
    { clearbody d0. clear - F H0 N M1. induction F as [|n l ns lls H F IH]; [constructor|]. constructor; [split; [apply M1|]; rewrite H0; [exact H|intros ->; apply N; left; reflexivity]|]. apply IH. intros I. apply N. right. exact I. }
    unfold mo_open. cbn [mo_readers mo_heap mo_init]. rewrite (open_readers_ok _ _ _ _ _ [] F0). cbn [app]. rewrite (not_in_existsb _ _ N).
    destruct (session_any ties fls ls FL B S) as (m' & rs & D & P1 & P2). rewrite (drain_loop key ltb _ _ _ _ 0 _ _ M3 D), close_emb. eexists. reflexivity.
  Qed.
End MergerAny.
