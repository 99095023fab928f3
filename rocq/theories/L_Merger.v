(** Lemmas for C104. *)
From Verif Require Import Base M_RecordIO L_RecordIO M_Dec M_Shard S_Shard L_Shard L_Merge M_File P_Multi M_Merger.
From Verif Require P_Shard.

Section Merger.
  Context {K : Type} (key : bytes -> K) (ltb : K -> K -> bool).
  Notation mg_loop := (M_Merger.mg_loop K key ltb).
  Notation mg_merge := (M_Merger.mg_merge K key ltb).
  Notation mg_run := (M_Merger.mg_run K key ltb).

  Lemma merge_resets ties dv g d shards out g' d' : mg_merge ties dv g d shards out = (g', d', Ok tt) -> g' = mg_init.
  Proof.
    unfold M_Merger.mg_merge. set (oo := mg_open_out dv g out). destruct (match shards with [] => oo d | _ => (d, Ok tt) end) as [d0 e]. destruct e; try discriminate.
    destruct (mo_open _ _ _ _ _) as [m1 r]. destruct r; try discriminate. destruct (oo d0) as [d1 o]. destruct o; try discriminate. destruct (existsb _ _); [discriminate|].
    destruct (mg_loop _ _ _ _ _) as [[m2 rs] r2]. destruct r2; try discriminate. unfold mo_close. destruct (close_readers _ _ _) as [q [[]| | | |]]; try discriminate. intros E. injection E as <- _. reflexivity.
  Qed.
  Lemma run_resets cs : forall g rs, mg_run mg_init cs = (g, rs) -> Forall (fun x => fst x = Ok tt) rs -> g = mg_init.
  Proof.
    induction cs as [|c cs IH]; intros g rs R A; [injection R as <- <-; reflexivity|]. cbn [M_Merger.mg_run] in R.
    destruct (mg_merge (mc_ties c) (mc_dv c) mg_init (mc_fs c) (mc_shards c) (mc_out c)) as [[g1 d1] r] eqn:E. destruct r as [[]|code| | |].
    - pose proof (merge_resets _ _ _ _ _ _ _ _ E) as ->. destruct (mg_run mg_init cs) as [g2 rs2] eqn:E2. injection R as <- <-. inversion A; subst. eapply IH; eauto.
    - destruct (mg_run g1 cs) as [g2 rs2]. injection R as <- <-. inversion A as [|? ? A1 _]. discriminate.
    - injection R as <- <-. inversion A as [|? ? A1 _]. discriminate.
    - injection R as <- <-. inversion A as [|? ? A1 _]. discriminate.
    - injection R as <- <-. inversion A as [|? ? A1 _]. discriminate.
  Qed.

  Lemma loop_drain fuel : forall ties dv m i m1 o1 m2 o2, mg_loop fuel ties dv m i = (m1, o1, Ok tt) -> drain K key ltb fuel ties m = (m2, o2, Ok tt) -> m1 = m2 /\ o1 = map fst o2.
  Proof.
    induction fuel as [|k IH]; intros ties dv m i m1 o1 m2 o2 L D; [discriminate|]. cbn [M_Merger.mg_loop drain] in *. destruct (mo_has_more m) as [[|]| | | |]; try discriminate.
    - destruct (mo_read K key ltb (ties O) m) as [[m' e] r]. destruct e as [e|], r as [u| | | |]; try discriminate. destruct (md_write dv i); [discriminate|].
      destruct (mg_loop k (fun n => ties (S n)) dv m' (S i)) as [[ma oa] ra] eqn:E1. destruct (drain K key ltb k (fun n => ties (S n)) m') as [[mb ob] rb] eqn:E2.
      injection L as <- <- ->. injection D as <- <- ->. destruct (IH _ _ _ _ _ _ _ _ E1 E2) as [-> ->]. split; reflexivity.
    - injection L as <- <-. injection D as <- <-. split; reflexivity.
  Qed.
  Lemma drain_loop fuel : forall ties dv m i m2 o2, (forall j, md_write dv j = false) -> drain K key ltb fuel ties m = (m2, o2, Ok tt) -> mg_loop fuel ties dv m i = (m2, map fst o2, Ok tt).
  Proof.
    induction fuel as [|k IH]; intros ties dv m i m2 o2 W D; [discriminate|]. cbn [M_Merger.mg_loop drain] in *. destruct (mo_has_more m) as [[|]| | | |]; try discriminate.
    - destruct (mo_read K key ltb (ties O) m) as [[m' e] r]. destruct e as [e|], r as [u| | | |]; try discriminate. rewrite W.
      destruct (drain K key ltb k (fun n => ties (S n)) m') as [[mb ob] rb] eqn:E2. injection D as <- <- ->. rewrite (IH _ _ _ _ _ _ W E2). reflexivity.
    - injection D as <- <-. reflexivity.
  Qed.
  Lemma loop_open fuel : forall ties dv m i m1 o r, all_open (mo_readers m) -> mg_loop fuel ties dv m i = (m1, o, r) -> all_open (mo_readers m1) /\ length (mo_readers m1) = length (mo_readers m).
  Proof.
    induction fuel as [|k IH]; intros ties dv m i m1 o r A L; [injection L as <- <- <-; auto|]. cbn [M_Merger.mg_loop] in L. destruct (mo_has_more m) as [[|]| | | |]; try (injection L as <- <- <-; auto; fail).
    destruct (mo_read K key ltb (ties O) m) as [[m' e] q] eqn:E. destruct (read_open K key ltb _ _ _ _ _ A E) as [A1 A2].
    destruct e as [e|], q as [u| | | |]; try (injection L as <- <- <-; auto; fail). destruct (md_write dv i); [injection L as <- <- <-; auto|].
    destruct (mg_loop k (fun n => ties (S n)) dv m' (S i)) as [[ma oa] ra] eqn:E1. injection L as <- <- <-. destruct (IH _ _ _ _ _ _ _ A1 E1) as [B1 B2]. split; [exact B1|congruence].
  Qed.

  Lemma fuel_emb l : mo_fuel (MO (map ROpen l) []) = ms_fuel (MSR l []).
  Proof. unfold mo_fuel, ms_fuel. cbn [mo_heap mo_readers ms_heap ms_readers]. rewrite map_map, map_id. reflexivity. Qed.
  Lemma not_in_existsb out shards : ~ In out shards -> existsb (bytes_eqb out) shards = false.
  Proof. intros N. apply not_true_is_false. intros E. apply existsb_exists in E as (x & I & E). apply bytes_eqb_eq in E. subst x. auto. Qed.
  Lemma open_missed (d : fs) miss bad names : forall done contents q, Forall2 (fun n (l : bytes) => d n = Some l) names contents -> open_readers d miss bad done names = (q, Ok tt) -> q = done ++ map ROpen contents.
  Proof.
    induction names as [|n ns IH]; intros done contents q F E; inversion F as [|? c ? cs H1 H2]; subst; [injection E as <-; cbn; rewrite app_nil_r; reflexivity|].
    cbn [open_readers] in E. destruct (miss n); [destruct (existsb bad _); discriminate|]. rewrite H1 in E. rewrite (IH _ _ _ H2 E). cbn [map]. rewrite <- app_assoc. reflexivity.
  Qed.

  Hypothesis HO : strict_total ltb.
  (** The session of C64, as used below. *)
  Lemma session ties (ls : list (list bytes)) : Forall (Forall (fun r : bytes => Z.of_nat (length r) < 2 ^ 32)) ls -> Forall (key_sorted key ltb) ls ->
    exists m' rs, drain K key ltb (ms_fuel (MSR (map write_records ls) [])) ties (MO (map ROpen (map write_records ls)) []) = (emb m', rs, Ok tt) /\
      key_sorted key ltb (map fst rs) /\ Permutation (map fst rs) (concat ls).
  Proof.
    intros H1 H2. destruct (P_Shard.C09_multi_reader_merges K key ltb HO ties ls H1 H2) as (out & E & P1 & P2 & P3). cbv zeta in E. destruct (drain_ok K key ltb _ ties _ _ E) as (m' & D & _).
    exists m', out. split; [exact D|]. split; [exact P3|]. apply P_Shard.C09_permutation; assumption.
  Qed.
  Lemma close_emb m : mo_close (emb m) (fun _ => false) = (mo_init, Ok tt).
  Proof. unfold mo_close, emb. cbn [mo_readers]. pose proof (close_open_readers (ms_readers m) 0 (fun _ => false) (fun _ => eq_refl)) as Q. destruct (close_readers _ _ _) as [q [[]| | | |]]; try discriminate. reflexivity. Qed.

  Lemma merge_complete ties dv (d : fs) shards (ls : list (list bytes)) out g' d' :
    Forall2 (fun n l => d n = Some (write_records l)) shards ls -> Forall (Forall (fun r : bytes => Z.of_nat (length r) < 2 ^ 32)) ls -> Forall (key_sorted key ltb) ls -> ~ In out shards ->
    mg_merge ties dv mg_init d shards out = (g', d', Ok tt) ->
    exists rs, d' out = Some (write_records rs) /\ key_sorted key ltb rs /\ Permutation rs (concat ls) /\ forall n, n <> out -> d' n = d n.
  Proof.
    intros F B S N E. unfold M_Merger.mg_merge in E. set (oo := mg_open_out dv mg_init out) in E. change (mg_reader mg_init) with mo_init in E.
    assert (O : forall x y, oo x = (y, Ok tt) -> forall n, n <> out -> y n = x n). { intros x y X n Hn. unfold oo, mg_open_out in X. cbn [mg_out mg_init] in X. destruct (md_out_open dv); [discriminate|]. injection X as <-. apply fs_set_neq, Hn. }
    destruct (match shards with [] => oo d | _ => (d, Ok tt) end) as [d0 e] eqn:E0. destruct e as [[]| | | |]; try discriminate.
    assert (H0 : forall n, n <> out -> d0 n = d n). { destruct shards; [exact (O _ _ E0)|injection E0 as <-; reflexivity]. }
    assert (F0 : Forall2 (fun n (l : bytes) => d0 n = Some l) shards (map write_records ls)).
    { clear - F H0 N. induction F as [|n l ns lls H F IH]; [constructor|]. constructor; [rewrite H0; [exact H|intros ->; apply N; left; reflexivity]|]. apply IH. intros I. apply N. right. exact I. }
    destruct (mo_open mo_init d0 (md_miss dv) (fun _ => false) shards) as [m1 r] eqn:Em. unfold mo_open in Em. cbn [mo_readers mo_heap mo_init] in Em.
    destruct (open_readers d0 (md_miss dv) (fun _ => false) [] shards) as [q r'] eqn:Eo. injection Em as <- <-. destruct r' as [[]| | | |]; try discriminate.
    rewrite (open_missed _ _ _ _ _ _ _ F0 Eo) in E. cbn [app] in E. destruct (oo d0) as [d1 o] eqn:E1. destruct o as [[]| | | |]; try discriminate. rewrite (not_in_existsb _ _ N) in E.
    rewrite fuel_emb in E. destruct (session ties ls B S) as (m' & rs & D & P1 & P2).
    destruct (mg_loop _ _ _ _ _) as [[m2 o2] r2] eqn:El in E. destruct r2 as [[]| | | |]; try discriminate. destruct (loop_drain _ _ _ _ _ _ _ _ _ El D) as [-> ->].
    rewrite close_emb in E. injection E as _ <-. exists (map fst rs). split; [apply fs_set_eq|]. split; [exact P1|]. split; [exact P2|]. intros n Hn. rewrite fs_set_neq, (O _ _ E1), H0; auto.
  Qed.
  Lemma merge_succeeds ties dv (d : fs) shards (ls : list (list bytes)) out :
    Forall2 (fun n l => d n = Some (write_records l)) shards ls -> Forall (Forall (fun r : bytes => Z.of_nat (length r) < 2 ^ 32)) ls -> Forall (key_sorted key ltb) ls -> ~ In out shards ->
    (forall n, md_miss dv n = false) -> md_out_open dv = false -> (forall i, md_write dv i = false) ->
    exists d', mg_merge ties dv mg_init d shards out = (mg_init, d', Ok tt).
  Proof.
    intros F B S N M1 M2 M3. unfold M_Merger.mg_merge, mg_open_out. cbn [mg_out mg_init mg_reader]. rewrite M2. set (d0 := match shards with [] => fs_set d out [] | _ => d end).
    replace (match shards with [] => (fs_set d out [], Ok tt) | _ => (d, Ok tt) end) with (d0, @Ok unit tt) by (unfold d0; destruct shards; reflexivity).
    assert (H0 : forall n, n <> out -> d0 n = d n). { unfold d0. destruct shards; intros n Hn; [apply fs_set_neq, Hn|reflexivity]. }
    assert (F0 : Forall2 (fun n (l : bytes) => md_miss dv n = false /\ d0 n = Some l) shards (map write_records ls)).
    { clearbody d0. clear - F H0 N M1. induction F as [|n l ns lls H F IH]; [constructor|]. constructor; [split; [apply M1|]; rewrite H0; [exact H|intros ->; apply N; left; reflexivity]|]. apply IH. intros I. apply N. right. exact I. }
    unfold mo_open. cbn [mo_readers mo_heap mo_init]. rewrite (open_readers_ok _ _ _ _ _ [] F0). cbn [app]. rewrite (not_in_existsb _ _ N), fuel_emb.
    destruct (session ties ls B S) as (m' & rs & D & P1 & P2). rewrite (drain_loop _ _ _ _ 0 _ _ M3 D), close_emb. eexists. reflexivity.
  Qed.

  Lemma open_left (d : fs) miss names : (exists q, open_readers d miss (fun _ => false) [] names = (q, Ok tt)) \/ open_readers d miss (fun _ => false) [] names = ([RClosed], Err NotFound).
  Proof.
    assert (G : forall done, (exists q, open_readers d miss (fun _ => false) done names = (q, Ok tt)) \/ open_readers d miss (fun _ => false) done names = ([RClosed], Err NotFound)); [|apply G]. induction names as [|n ns IH]; intros done; [left; eexists; reflexivity|]. cbn [open_readers]. destruct (if miss n then None else d n); [apply IH|]. right.
    replace (existsb (fun _ : nat => false) (seq 1 (length done - 1))) with false; [destruct done; reflexivity|]. symmetry. apply not_true_is_false. intros X. apply existsb_exists in X as (i & _ & X). discriminate.
  Qed.
  Lemma failed_nonempty ties dv (d : fs) shards out g' d' c : shards <> [] -> mg_merge ties dv mg_init d shards out = (g', d', Err c) -> mo_readers (mg_reader g') <> [].
  Proof.
    intros Hs E. unfold M_Merger.mg_merge in E. set (oo := mg_open_out dv mg_init out) in E. change (mg_reader mg_init) with mo_init in E.
    replace (match shards with [] => oo d | _ => (d, Ok tt) end) with (d, @Ok unit tt) in E by (destruct shards; [contradiction|reflexivity]).
    destruct (mo_open mo_init d (md_miss dv) (fun _ => false) shards) as [m1 r] eqn:Eo.
    destruct (open_left d (md_miss dv) shards) as [(q & X)|X]; unfold mo_open in Eo; cbn [mo_readers mo_init mo_heap] in Eo; rewrite X in Eo; injection Eo as <- <-.
    2: { injection E as <- _ _. discriminate. }
    destruct (session_open K key ltb d (md_miss dv) (fun _ => false) shards (MO q []) [] (MO q []) []) as [A1 A2]; [unfold mo_open; cbn [mo_readers mo_init mo_heap]; rewrite X; reflexivity|constructor|reflexivity|]. cbn [mo_readers] in A1, A2.
    assert (Hq : q <> []). { intros ->. destruct shards; [contradiction|discriminate]. }
    destruct (oo d) as [d1 o]. destruct o as [[]| | | |]; try discriminate. 2: { injection E as <- _ _. exact Hq. }
    destruct (existsb _ _); [discriminate|]. destruct (mg_loop _ _ _ _ _) as [[m2 rs] r2] eqn:El in E. destruct (loop_open _ _ _ (MO q []) _ _ _ _ A1 El) as [B1 B2]. cbn [mo_readers] in B2.
    assert (Hm : mo_readers m2 <> []). { intros Z. rewrite Z in B2. destruct q; [contradiction|discriminate]. }
    destruct r2 as [[]| | | |]; try discriminate; [|injection E as <- _ _; exact Hm].
    exfalso. unfold mo_close in E. assert (G : forall l i, all_open l -> snd (close_readers (fun _ => false) i l) = Ok tt).
    { clear. intros l i H. revert i. induction H as [|x l (f & ->) H IH]; intros i; [reflexivity|]. cbn [close_readers]. specialize (IH (S i)). destruct (close_readers (fun _ => false) (S i) l). exact IH. }
    specialize (G _ 0%nat B1). destruct (close_readers (fun _ => false) 0 (mo_readers m2)) as [x [[]| | | |]]; discriminate.
  Qed.
  Lemma stuck ties dv g (d : fs) shards out : mo_readers (mg_reader g) <> [] ->
    exists g' d' c, mg_merge ties dv g d shards out = (g', d', Err c) /\ mo_readers (mg_reader g') <> [] /\ (shards <> [] -> c = Internal /\ d' = d) /\ (forall n, n <> out -> d' n = d n).
  Proof.
    intros H. unfold M_Merger.mg_merge. set (oo := mg_open_out dv g out).
    assert (M : forall x names, mo_open (mg_reader g) x (md_miss dv) (fun _ => false) names = (mg_reader g, Err Internal)). { intros x names. unfold mo_open. destruct (mo_readers (mg_reader g)); [contradiction|reflexivity]. }
    destruct shards as [|s0 shards].
    - destruct (oo d) as [d0 e] eqn:E. unfold oo, mg_open_out in E. destruct (mg_out g). { injection E as <- <-. do 3 eexists. split; [reflexivity|]. split; [exact H|]. split; [contradiction|reflexivity]. }
      destruct (md_out_open dv). { injection E as <- <-. do 3 eexists. split; [reflexivity|]. split; [exact H|]. split; [contradiction|reflexivity]. }
      injection E as <- <-. rewrite M. do 3 eexists. split; [reflexivity|]. split; [exact H|]. split; [contradiction|]. intros n. apply fs_set_neq.
    - rewrite M. do 3 eexists. split; [reflexivity|]. split; [exact H|]. split; [auto|reflexivity].
  Qed.
  Lemma stuck_run cs : forall g, mo_readers (mg_reader g) <> [] -> exists g' rs, mg_run g cs = (g', rs) /\
    Forall2 (fun c x => (exists code, fst x = Err code) /\ (mc_shards c <> [] -> x = (Err Internal, mc_fs c)) /\ forall n, n <> mc_out c -> snd x n = mc_fs c n) cs rs.
  Proof.
    induction cs as [|c cs IH]; intros g H; [do 2 eexists; split; [reflexivity|constructor]|]. cbn [M_Merger.mg_run].
    destruct (stuck (mc_ties c) (mc_dv c) g (mc_fs c) (mc_shards c) (mc_out c) H) as (g' & d' & code & -> & H' & A & B). destruct (IH g' H') as (g2 & rs & -> & F). do 2 eexists. split; [reflexivity|].
    constructor; [|exact F]. cbn [fst snd]. split; [eauto|]. split; [intros S; destruct (A S) as [-> ->]; reflexivity|exact B].
  Qed.

  (** A merge that returns OK has read every shard to its end. *)
  Definition whole (r : rstate) (l : list bytes) : Prop := exists f, r = ROpen f /\ read_records f = (l, Ok tt).
  Definition holds (m : mobj) (out : list bytes) : Prop := exists ls, Forall2 whole (mo_readers m) ls /\ Permutation out (map fst (mo_heap m) ++ concat ls).
  Lemma split_set_nth {A} (l : list A) i x y : nth_error l i = Some y -> exists a b, l = a ++ y :: b /\ set_nth i x l = a ++ x :: b.
  Proof.
    revert i. induction l as [|z l IH]; intros [|i] H; cbn in H; try discriminate; [injection H as ->; exists [], l; split; reflexivity|].
    destruct (IH _ H) as (a & b & -> & E). exists (z :: a), b. cbn [set_nth app]. rewrite E. split; reflexivity.
  Qed.
  Lemma read_at_back f r f' : read_record_at f = (Ok r, f') -> read_record f = Ok (r, f').
  Proof.
    unfold read_record, extract_varint32, read_record_at. destruct (varint_loop 5 f) as [[[s t] q]| | | |]; cbn [bind]; try discriminate. destruct t; cbn [bind]; try discriminate.
    unfold f_read. destruct (Z.to_nat (read_varint32 s) <=? length q)%nat; [|discriminate]. intros E. injection E as <- <-. reflexivity.
  Qed.
  Lemma records_back f r f' l : read_record f = Ok (r, f') -> f_has_more f = true -> read_records f' = (l, Ok tt) -> read_records f = (r :: l, Ok tt).
  Proof. intros E H L. unfold read_records. cbn [read_all]. rewrite H, E. pose proof (read_record_shrinks _ _ _ E). rewrite (read_all_fuel _ (S (length f'))) by lia. fold (read_records f'). rewrite L. reflexivity. Qed.
  Lemma fill_back m i m' out : mo_fill m i = (m', Ok tt) -> holds m' out -> holds m out.
  Proof.
    unfold mo_fill. destruct (nth_error (mo_readers m) i) as [q|] eqn:En; [|discriminate]. destruct q as [|f|]; try discriminate. destruct (f_has_more f) eqn:Hf; [|intros E; injection E as <-; auto].
    destruct (read_record_at f) as [[r|c| | |] f'] eqn:Er; try discriminate. intros E. injection E as <-. intros (ls & F & P). cbn [mo_readers mo_heap] in *.
    destruct (split_set_nth _ _ (ROpen f') _ En) as (a & b & Ea & Eb). rewrite Eb in F. apply Forall2_app_inv_l in F as (la & lb & Fa & Fb & ->). inversion Fb as [|? l ? lb' (f1 & E1 & W) Fb']; subst. injection E1 as <-.
    exists (la ++ (r :: l) :: lb'). rewrite Ea. split.
    - apply Forall2_app; [exact Fa|]. constructor; [|exact Fb']. exists f. split; [reflexivity|]. eapply records_back; eauto using read_at_back.
    - rewrite P. cbn [map fst app]. rewrite !concat_app. cbn [concat app]. rewrite (app_assoc (map fst (mo_heap m)) (concat la) (l ++ concat lb')), (app_assoc (map fst (mo_heap m)) (concat la) (r :: l ++ concat lb')). apply Permutation_middle.
  Qed.
  Lemma fill_all_back is : forall m m' out, mo_fill_all m is = (m', Ok tt) -> holds m' out -> holds m out.
  Proof.
    induction is as [|i is IH]; intros m m' out E H; [injection E as <-; exact H|]. cbn [mo_fill_all] in E. destruct (mo_fill m i) as [m1 r1] eqn:E1. destruct r1 as [[]| | | |]; try discriminate.
    eapply fill_back; eauto.
  Qed.
  Lemma ended_readers rs : all_open rs -> readers_have_more rs = Ok false -> Forall2 whole rs (map (fun _ => []) rs).
  Proof.
    induction 1 as [|x rs (f & ->) H IH]; intros E; [constructor|]. cbn [readers_have_more] in E. destruct f as [|b f]; [|discriminate]. cbn [f_has_more] in E. constructor; [exists []; split; reflexivity|exact (IH E)].
  Qed.
  Lemma concat_nils {A B} (l : list A) : concat (map (fun _ => @nil B) l) = [].
  Proof. induction l; [reflexivity|assumption]. Qed.
  Lemma read_back t m m' e out : mo_read K key ltb t m = (m', Some e, Ok tt) -> holds m' out -> holds m (fst e :: out).
  Proof.
    unfold mo_read. destruct (match mo_heap m with [] => mo_fill_all m (seq 0 (length (mo_readers m))) | _ :: _ => (m, Ok tt) end) as [m1 r1] eqn:E1. destruct r1 as [[]| | | |]; try discriminate.
    destruct (heap_pop K key ltb t (mo_heap m1)) as [[e1 h]|] eqn:Ep; [|discriminate]. destruct (mo_fill (MO (mo_readers m1) h) (snd e1)) as [m2 r2] eqn:E2. intros E. injection E as <- -> ->. intros H.
    assert (H1 : holds m1 (fst e :: out)).
    { destruct (fill_back _ _ _ _ E2 H) as (ls & F & P). cbn [mo_readers mo_heap] in *. exists ls. split; [exact F|].
      destruct (mo_heap m1) as [|x y] eqn:Eh; [discriminate|]. destruct (heap_pop_spec key ltb HO t (x :: y)) as (e' & h1 & h2 & X & Y & _); [discriminate|]. rewrite X in Ep. injection Ep as -> <-. rewrite Y, map_app. cbn [map].
      rewrite map_app in P. rewrite <- app_assoc in P |- *. cbn [app]. apply Permutation_cons_app. exact P. }
    destruct (mo_heap m) eqn:Eh; [eapply fill_all_back; eauto|]. injection E1 as <-. exact H1.
  Qed.
  Lemma loop_back fuel : forall ties dv m i m1 out, all_open (mo_readers m) -> mg_loop fuel ties dv m i = (m1, out, Ok tt) -> holds m out.
  Proof.
    induction fuel as [|k IH]; intros ties dv m i m1 out A L; [discriminate|]. cbn [M_Merger.mg_loop] in L. destruct (mo_has_more m) as [[|]| | | |] eqn:Hm; try discriminate.
    - destruct (mo_read K key ltb (ties O) m) as [[m' e] q] eqn:E. destruct (read_open K key ltb _ _ _ _ _ A E) as [A1 _]. destruct e as [e|], q as [[]| | | |]; try discriminate. destruct (md_write dv i); [discriminate|].
      destruct (mg_loop k (fun n => ties (S n)) dv m' (S i)) as [[ma oa] ra] eqn:E1. injection L as <- <- ->. exact (read_back _ _ _ _ _ E (IH _ _ _ _ _ _ A1 E1)).
    - injection L as <- <-. unfold mo_has_more in Hm. destruct (mo_heap m) eqn:Eh; [|discriminate]. exists (map (fun _ => []) (mo_readers m)). split; [exact (ended_readers _ A Hm)|]. rewrite Eh, concat_nils. constructor.
  Qed.
  Lemma open_inv (d : fs) miss bad names : forall done q, open_readers d miss bad done names = (q, Ok tt) -> exists fs, q = done ++ map ROpen fs /\ Forall2 (fun n (f : bytes) => d n = Some f) names fs.
  Proof.
    induction names as [|n ns IH]; intros done q E; [injection E as <-; exists []; split; [rewrite app_nil_r; reflexivity|constructor]|].
    cbn [open_readers] in E. destruct (if miss n then None else d n) as [f|] eqn:Ef; [|destruct (existsb bad _); discriminate]. destruct (miss n); [discriminate|].
    destruct (IH _ _ E) as (l & -> & F). exists (f :: l). cbn [map]. rewrite <- app_assoc. split; [reflexivity|constructor; assumption].
  Qed.
  Lemma merge_reads_all ties dv (d : fs) shards out g' d' : mg_merge ties dv mg_init d shards out = (g', d', Ok tt) -> ~ In out shards /\
    exists ls rs, Forall2 (fun n l => exists f, d n = Some f /\ read_records f = (l, Ok tt)) shards ls /\ d' out = Some (write_records rs) /\ Permutation rs (concat ls) /\ forall n, n <> out -> d' n = d n.
  Proof.
    intros E. unfold M_Merger.mg_merge in E. set (oo := mg_open_out dv mg_init out) in E. change (mg_reader mg_init) with mo_init in E.
    assert (O : forall x y, oo x = (y, Ok tt) -> forall n, n <> out -> y n = x n). { intros x y X n Hn. unfold oo, mg_open_out in X. cbn [mg_out mg_init] in X. destruct (md_out_open dv); [discriminate|]. injection X as <-. apply fs_set_neq, Hn. }
    destruct (match shards with [] => oo d | _ => (d, Ok tt) end) as [d0 e] eqn:E0. destruct e as [[]| | | |]; try discriminate.
    assert (H0 : forall n, n <> out -> d0 n = d n). { destruct shards; [exact (O _ _ E0)|injection E0 as <-; reflexivity]. }
    destruct (mo_open mo_init d0 (md_miss dv) (fun _ => false) shards) as [m1 r] eqn:Em. unfold mo_open in Em. cbn [mo_readers mo_heap mo_init] in Em.
    destruct (open_readers d0 (md_miss dv) (fun _ => false) [] shards) as [q r'] eqn:Eo. injection Em as <- <-. destruct r' as [[]| | | |]; try discriminate.
    destruct (open_inv _ _ _ _ _ _ Eo) as (fs & -> & F). cbn [app] in E. destruct (oo d0) as [d1 o] eqn:E1. destruct o as [[]| | | |]; try discriminate. destruct (existsb (bytes_eqb out) shards) eqn:Ex; [discriminate|].
    assert (N : ~ In out shards). { intros I. apply not_true_iff_false in Ex. apply Ex, existsb_exists. exists out. split; [exact I|]. apply bytes_eqb_eq. reflexivity. }
    split; [exact N|]. destruct (mg_loop _ _ _ _ _) as [[m2 o2] r2] eqn:El in E. destruct r2 as [[]| | | |]; try discriminate.
    assert (A : all_open (mo_readers (MO (map ROpen fs) []))). { cbn [mo_readers]. clear. induction fs; constructor; [eexists; reflexivity|assumption]. }
    destruct (loop_back _ _ _ _ _ _ _ A El) as (ls & W & P). cbn [mo_readers mo_heap map app] in W, P. destruct (mo_close m2 (fun _ => false)) as [m3 r3]. injection E as _ <- _.
    exists ls, o2. split; [|split; [apply fs_set_eq|split; [exact P|intros n Hn; rewrite fs_set_neq, (O _ _ E1), H0; auto]]].
    clear - F W H0 N. revert ls W. induction F as [|n f ns fs H F IH]; intros ls W; inversion W as [|? l ? ls' (f1 & X & Y) W']; subst; constructor.
    - injection X as <-. exists f. split; [rewrite <- H0; [exact H|intros ->; apply N; left; reflexivity]|exact Y].
    - apply IH; [intros I; apply N; right; exact I|exact W'].
  Qed.
End Merger.
