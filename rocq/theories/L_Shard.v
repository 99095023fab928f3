(** Lemmas about the sharding writer. *)
From Verif Require Import Base M_RecordIO M_Dec L_Dec M_Shard S_Shard.

Section L.
  Context {K : Type} (key : bytes -> K) (ltb : K -> K -> bool) (HO : strict_total ltb).

  Lemma nlt_trans a b c : ltb b a = false -> ltb c b = false -> ltb c a = false.
  Proof.
    destruct HO as (I & T & E). intros H1 H2. destruct (ltb c a) eqn:H3; [|reflexivity].
    destruct (ltb a b) eqn:H4.
    - rewrite (T _ _ _ H3 H4) in H2. discriminate.
    - rewrite (E _ _ H4 H1) in *. congruence.
  Qed.
  Lemma nlt_asym a b : ltb a b = true -> ltb b a = false.
  Proof.
    destruct HO as (I & T & E). intros H. destruct (ltb b a) eqn:G; [|reflexivity].
    pose proof (T _ _ _ H G) as X. rewrite I in X. discriminate.
  Qed.

  Lemma insert_perm r l : Permutation (insert K key ltb r l) (r :: l).
  Proof.
    induction l as [|x l IH]; cbn [insert]; [reflexivity|].
    destruct (ltb (key x) (key r)); [|reflexivity].
    rewrite IH. apply perm_swap.
  Qed.
  Lemma sort_by_perm l : Permutation (sort_by K key ltb l) l.
  Proof.
    induction l as [|x l IH]; [reflexivity|]. change (sort_by K key ltb (x :: l)) with (insert K key ltb x (sort_by K key ltb l)).
    rewrite insert_perm, IH. reflexivity.
  Qed.
  Lemma insert_sorted r l : key_sorted key ltb l -> key_sorted key ltb (insert K key ltb r l).
  Proof.
    unfold key_sorted. induction l as [|x l IH]; intros H; cbn [insert].
    - repeat constructor.
    - inversion H as [|? ? H1 H2]; subst. destruct (ltb (key x) (key r)) eqn:E.
      + constructor; [apply IH; exact H1|].
        rewrite Forall_forall in *. intros y Hy.
        apply (Permutation_in _ (insert_perm r l)) in Hy. destruct Hy as [->|Hy]; [apply nlt_asym; exact E|].
        apply H2; exact Hy.
      + constructor; [exact H|]. constructor; [exact E|].
        rewrite Forall_forall in *. intros y Hy. eapply nlt_trans; [exact E|]. apply H2; exact Hy.
  Qed.
  Lemma sort_by_sorted l : key_sorted key ltb (sort_by K key ltb l).
  Proof. induction l as [|x l IH]; [constructor|]. apply insert_sorted. exact IH. Qed.
  Lemma sort_by_nonempty x l : sort_by K key ltb (x :: l) <> [].
  Proof. intros H. pose proof (sort_by_perm (x :: l)) as P. rewrite H in P. apply Permutation_nil in P. discriminate. Qed.

  Context (mb : Z).
  Notation write_cache := (write_cache K key ltb).
  Notation sw_write := (sw_write K key ltb mb).
  Notation sw_close := (sw_close K key ltb).
  Notation sw_step := (sw_step K key ltb mb).
  Notation sw_run := (sw_run K key ltb mb).

  Lemma sw_run_app sd ops1 ops2 :
    sw_run sd (ops1 ++ ops2) =
    let '(sd1, t1) := sw_run sd ops1 in let '(sd2, t2) := sw_run sd1 ops2 in (sd2, t1 ++ t2).
  Proof.
    revert sd; induction ops1 as [|op ops IH]; intros sd; cbn [app M_Shard.sw_run].
    - destruct (sw_run sd ops2); reflexivity.
    - destruct (sw_step sd op) as [[sd1 r] ev]. rewrite IH.
      destruct (sw_run sd1 ops) as [sd2 t2]. destruct (sw_run sd2 ops2) as [sd3 t3]. reflexivity.
  Qed.

  Definition names p k := map (fun i => shard_name p (Z.of_nat i)) (seq 0 k).

  Lemma shard_name_inj p i j : shard_name p (Z.of_nat i) = shard_name p (Z.of_nat j) -> i = j.
  Proof. unfold shard_name. intros H. apply app_inv_head in H. apply dec_inj_nonneg in H; lia. Qed.
  Lemma names_nodup p k : NoDup (names p k).
  Proof. apply FinFun.Injective_map_NoDup; [intros i j; apply shard_name_inj|apply seq_NoDup]. Qed.
  Lemma names_S p k : names p (S k) = names p k ++ [shard_name p (Z.of_nat k)].
  Proof. unfold names. rewrite seq_S, map_app. reflexivity. Qed.
  Lemma names_fresh p k : ~ In (shard_name p (Z.of_nat k)) (names p k).
  Proof. unfold names. rewrite in_map_iff. intros (i & E & H). apply in_seq in H. apply shard_name_inj in E. lia. Qed.

  Definition shard_ok (d : fs) n l := d n = Some (write_records l) /\ l <> [] /\ key_sorted key ltb l.

  (** Invariant of a session in which everything succeeded so far; w = records written so far. *)
  Record inv (p : bytes) (d0 : fs) (w : list bytes) (s : sw) (d : fs) : Prop := {
    i_shards : exists ls, sw_shards s = names p (length ls) /\ sw_idx s = Z.of_nat (length ls) /\
      Forall2 (shard_ok d) (sw_shards s) ls /\ Permutation (concat ls ++ sw_cache s) w;
    i_name : sw_fname s = shard_name p (sw_idx s);
    i_prefix : sw_prefix s = p;
    i_open : sw_open s = true;
    i_file : sw_file s = PClosed;
    i_healthy : sw_healthy s = true;
    i_other : forall n, ~ In n (sw_shards s) -> d n = d0 n }.

  Lemma fs_set_eq d n c : fs_set d n c n = Some c.
  Proof. unfold fs_set. rewrite bytes_eqb_refl. reflexivity. Qed.
  Lemma fs_set_neq d n c m : m <> n -> fs_set d n c m = d m.
  Proof. unfold fs_set. intros H. destruct (bytes_eqb m n) eqn:E; [apply bytes_eqb_eq in E; contradiction|reflexivity]. Qed.

  Lemma write_cache_ok p d0 w s d fl s1 d1 ev :
    inv p d0 w s d -> write_cache s d fl = (s1, d1, Ok tt, ev) ->
    inv p d0 w s1 d1 /\ sw_cache s1 = [].
  Proof.
    intros I H. unfold M_Shard.write_cache in H. rewrite (i_healthy _ _ _ _ _ I) in H. cbn [negb] in H.
    destruct (sw_cache s) as [|x c] eqn:Ec.
    { injection H as <- <- <-. auto. }
    rewrite (i_file _ _ _ _ _ I) in H.
    destruct (fl_open fl); [discriminate|].
    set (srt := sort_by K key ltb (x :: c)) in *.
    assert (X : fl_close fl = None /\ (forall i cc, fl_write fl = Some (i, cc) -> (i <? length srt)%nat = false)).
    { destruct (fl_write fl) as [[i cc]|]; [destruct (i <? length srt)%nat eqn:El|]; destruct (fl_close fl); cbn in H;
        try discriminate; split; auto; intros ? ? [= <- <-]; auto. }
    destruct X as (Hc & Hw).
    assert (H' : (SW (sw_prefix s) (shard_name (sw_prefix s) (sw_idx s + 1)) [] 0 (sw_idx s + 1)
             (sw_shards s ++ [sw_fname s]) true (sw_open s) PClosed, fs_set d (sw_fname s) (write_records srt)) = (s1, d1)).
    { rewrite Hc in H. destruct (fl_write fl) as [[i cc]|].
      - rewrite (Hw i cc eq_refl) in H. cbn in H. injection H as <- <- _. reflexivity.
      - cbn in H. injection H as <- <- _. reflexivity. }
    clear H. injection H' as <- <-. split; [|reflexivity].
    destruct I as [(ls & E1 & E2 & F & P) En Ep Eo Ef Eh Eoth].
    assert (Hn : sw_fname s = shard_name p (Z.of_nat (length ls))) by congruence.
    assert (Hfresh : ~ In (sw_fname s) (sw_shards s)) by (rewrite Hn, E1; apply names_fresh).
    constructor; cbn [sw_shards sw_idx sw_cache sw_fname sw_prefix sw_open sw_file sw_healthy].
    - exists (ls ++ [srt]). rewrite app_length. cbn [length]. rewrite Nat.add_1_r.
      split; [rewrite names_S, E1, Hn; reflexivity|]. split; [lia|]. split.
      + apply Forall2_app.
        * clear - F Hfresh. revert Hfresh. induction F as [|n l ns ls (A & B & C) F IH]; intros Hf; constructor.
          -- split; [|auto]. rewrite fs_set_neq; [exact A|]. intros ->. apply Hf. left; reflexivity.
          -- apply IH. intros Hin. apply Hf. right; exact Hin.
        * constructor; [|constructor]. split; [apply fs_set_eq|]. split; [apply sort_by_nonempty|apply sort_by_sorted].
      + rewrite concat_app. cbn [concat]. rewrite !app_nil_r. rewrite <- P. rewrite Ec.
        apply Permutation_app_head. apply sort_by_perm.
    - rewrite Ep. reflexivity.
    - exact Ep.
    - exact Eo.
    - reflexivity.
    - reflexivity.
    - intros n Hn'. rewrite in_app_iff in Hn'. cbn in Hn'. rewrite fs_set_neq; [|intros ->; tauto].
      apply Eoth. tauto.
  Qed.

  Lemma inv_push p d0 w s d r b : inv p d0 w s d ->
    inv p d0 (w ++ [r]) (SW (sw_prefix s) (sw_fname s) (sw_cache s ++ [r]) b (sw_idx s) (sw_shards s) (sw_healthy s)
      (sw_open s) (sw_file s)) d.
  Proof.
    intros [(ls & E1 & E2 & F & P) En Ep Eo Ef Eh Eoth]. constructor; cbn; auto.
    exists ls. split; [auto|]. split; [auto|]. split; [auto|]. rewrite app_assoc. apply Permutation_app_tail. exact P.
  Qed.

  Lemma sw_write_ok p d0 w s d r fl s1 d1 ev : inv p d0 w s d -> sw_write s d r fl = (s1, d1, Ok tt, ev) ->
    inv p d0 (w ++ [r]) s1 d1.
  Proof.
    intros I H. unfold M_Shard.sw_write in H. rewrite (i_open _ _ _ _ _ I), (i_healthy _ _ _ _ _ I) in H. cbn [negb] in H.
    destruct (mb <? sw_bytes s).
    - destruct (write_cache s d fl) as [[[s2 d2] st] ev2] eqn:E. destruct st as [[]| | | |]; try discriminate.
      injection H as <- <- _. apply inv_push. apply (write_cache_ok _ _ _ _ _ _ _ _ _ I E).
    - injection H as <- <- _. pose proof (inv_push _ _ _ _ _ r (wrap32 (sw_bytes s + Z.of_nat (length r))) I) as X.
      rewrite (i_open _ _ _ _ _ I), (i_healthy _ _ _ _ _ I) in X. exact X.
  Qed.

  Lemma inv_prefix p d0 w s d : inv p d0 w s d -> inv p d0 w (sw_set_prefix s p) d.
  Proof. intros [(ls & E1 & E2 & F & P) En Ep Eo Ef Eh Eoth]. constructor; cbn; eauto. Qed.

  Lemma session_body_inv p d0 ops rs : session_body p ops rs -> forall w s d sd tr,
    inv p d0 w s d -> sw_run (s, d) ops = (sd, tr) -> all_ok tr -> inv p d0 (w ++ rs) (fst sd) (snd sd).
  Proof.
    induction 1 as [|ops rs B IH|r fl ops rs B IH]; intros w s d sd tr I R A.
    - injection R as <- <-. rewrite app_nil_r. exact I.
    - cbn in R. destruct (sw_run (sw_set_prefix s p, d) ops) as [sd2 t2] eqn:E. injection R as <- <-.
      inversion A; subst. eapply IH; [apply inv_prefix; exact I|exact E|assumption].
    - cbn [M_Shard.sw_run M_Shard.sw_step] in R. destruct (sw_write s d r fl) as [[[s1 d1] o] ev] eqn:E1.
      destruct (sw_run (s1, d1) ops) as [sd2 t2] eqn:E. injection R as <- <-.
      inversion A as [|? ? A1 A2]; subst. cbn in A1. subst o.
      replace (w ++ r :: rs) with ((w ++ [r]) ++ rs) by (rewrite <- app_assoc; reflexivity).
      eapply IH; [eapply sw_write_ok; eassumption|exact E|exact A2].
  Qed.

  Lemma session_ok p d0 ops rs fl sd tr : session p ops rs ->
    sw_run (sw_init, d0) (ops ++ [OpClose fl]) = (sd, tr) -> all_ok tr ->
    exists ns ls, fst sd = sw_init /\
      (exists ev tr', tr = tr' ++ [(OpClose fl, RClose (Ok ns), ev)]) /\
      ns = names p (length ls) /\ Forall2 (shard_ok (snd sd)) ns ls /\ Permutation (concat ls) rs /\
      (forall n, ~ In n ns -> snd sd n = d0 n).
  Proof.
    intros (ops' & -> & B) R A. rewrite sw_run_app in R.
    destruct (sw_run (sw_init, d0) (OpPrefix p :: ops')) as [[s1 d1] t1] eqn:E1.
    cbn in E1. destruct (sw_run (sw_set_prefix sw_init p, d0) ops') as [sd2 t2] eqn:E2.
    injection E1 as -> <-. cbn [M_Shard.sw_run M_Shard.sw_step] in R.
    destruct (sw_close s1 d1 fl) as [[[s3 d3] o] ev] eqn:E3. injection R as <- <-.
    inversion A as [|? ? _ A0]; subst. apply Forall_app in A0. destruct A0 as (A3 & A2).
    inversion A2 as [|? ? A4 _]; subst. cbn in A4. destruct A4 as (ns & ->).
    assert (I0 : inv p d0 [] (sw_set_prefix sw_init p) d0).
    { constructor; cbn; auto. exists []. cbn. repeat split; auto. }
    pose proof (session_body_inv _ _ _ _ B _ _ _ _ _ I0 E2 A3) as I1. cbn [app fst snd] in I1.
    unfold M_Shard.sw_close in E3. rewrite (i_open _ _ _ _ _ I1) in E3. cbn [negb] in E3.
    destruct (write_cache s1 d1 fl) as [[[s4 d4] st] ev4] eqn:E4.
    destruct st as [[]| | | |]; try discriminate. cbn in E3. injection E3 as <- <- <- <-.
    destruct (write_cache_ok _ _ _ _ _ _ _ _ _ I1 E4) as (I2 & Hc).
    destruct I2 as [(ls & H1 & H2 & F & P) En Ep Eo Ef Eh Eoth].
    exists (sw_shards s4), ls. cbn [fst snd]. rewrite Ef. split; [reflexivity|]. split; [exists ev4, ((OpPrefix p, RUnit, []) :: t2); reflexivity|].
    split; [exact H1|]. split; [exact F|]. split; [|exact Eoth]. rewrite Hc, app_nil_r in P. exact P.
  Qed.

  (** File state is never dangling without close failures. *)
  Lemma write_cache_file s d fl s1 d1 o ev : fl_close fl = None -> sw_file s = PClosed ->
    write_cache s d fl = (s1, d1, o, ev) -> sw_file s1 = PClosed.
  Proof.
    intros Hc Hf H. unfold M_Shard.write_cache in H. rewrite Hf, Hc in H.
    destruct (negb (sw_healthy s)); [injection H as <- _ _ _; exact Hf|].
    destruct (sw_cache s); [injection H as <- _ _ _; exact Hf|].
    destruct (fl_open fl); [injection H as <- _ _ _; reflexivity|].
    destruct (fl_write fl) as [[i cc]|]; [destruct (i <? _)%nat|]; injection H as <- _ _ _; reflexivity.
  Qed.
  Lemma step_file s d op s1 d1 r ev : fl_close (op_fault op) = None -> sw_file s = PClosed ->
    sw_step (s, d) op = ((s1, d1), r, ev) -> sw_file s1 = PClosed.
  Proof.
    intros Hc Hf H. destruct op as [p|r0 fl|fl]; cbn in H, Hc.
    - injection H as <- _ _ _. exact Hf.
    - destruct (sw_write s d r0 fl) as [[[s2 d2] o] e] eqn:E. injection H as <- <- <- <-.
      unfold M_Shard.sw_write in E.
      destruct (negb (sw_open s)); [injection E as <- _ _ _; exact Hf|].
      destruct (negb (sw_healthy s)); [injection E as <- _ _ _; exact Hf|].
      destruct (mb <? sw_bytes s); [|injection E as <- _ _ _; exact Hf].
      destruct (write_cache s d fl) as [[[s3 d3] st] e3] eqn:E3.
      pose proof (write_cache_file _ _ _ _ _ _ _ Hc Hf E3) as Hf3.
      destruct st; injection E as <- _ _ _; exact Hf3.
    - unfold M_Shard.sw_close in H. destruct (negb (sw_open s)); [injection H as <- _ _ _; exact Hf|].
      destruct (write_cache s d fl) as [[[s3 d3] st] e3] eqn:E3.
      pose proof (write_cache_file _ _ _ _ _ _ _ Hc Hf E3) as Hf3. injection H as <- _ _ _. exact Hf3.
  Qed.
  Lemma run_file ops : forall s d s1 d1 tr, no_close_failure ops -> sw_file s = PClosed ->
    sw_run (s, d) ops = ((s1, d1), tr) -> sw_file s1 = PClosed.
  Proof.
    induction ops as [|op ops IH]; intros s d s1 d1 tr N F R; cbn [M_Shard.sw_run] in R.
    - injection R as <- _ _. exact F.
    - inversion N; subst. destruct (sw_step (s, d) op) as [[[s2 d2] r] ev] eqn:E.
      destruct (sw_run (s2, d2) ops) as [sd3 t3] eqn:E3. injection R as -> _.
      eapply IH; [eassumption|eapply step_file; eassumption|exact E3].
  Qed.

  (** Close resets everything but the stream. *)
  Lemma close_resets s d fl s1 d1 o ev : sw_close s d fl = (s1, d1, o, ev) ->
    s1 = SW [] [] [] 0 0 [] true false (sw_file s1).
  Proof.
    unfold M_Shard.sw_close. destruct (negb (sw_open s)); [intros [= <- _ _ _]; reflexivity|].
    destruct (write_cache s d fl) as [[[s3 d3] st] e3]. intros [= <- _ _ _]. reflexivity.
  Qed.

  Lemma between_sessions_fresh hist d s1 d1 tr : between_sessions hist -> no_close_failure hist ->
    sw_run (sw_init, d) hist = ((s1, d1), tr) -> s1 = sw_init.
  Proof.
    intros [->|(h & fl & ->)] N R.
    - injection R as <- _. reflexivity.
    - pose proof (run_file _ sw_init d _ _ _ N eq_refl R) as Hf. rewrite sw_run_app in R.
      destruct (sw_run (sw_init, d) h) as [[s2 d2] t2]. cbn [M_Shard.sw_run M_Shard.sw_step] in R.
      destruct (sw_close s2 d2 fl) as [[[s3 d3] o] ev] eqn:E. injection R as -> -> <-.
      apply close_resets in E. rewrite E, Hf. reflexivity.
  Qed.

  (** C06. *)
  Lemma sharding_ok hist d0 s1 d1 tr1 p ops rs fl sd tr :
    between_sessions hist -> no_close_failure hist ->
    sw_run (sw_init, d0) hist = ((s1, d1), tr1) ->
    session p ops rs ->
    sw_run (s1, d1) (ops ++ [OpClose fl]) = (sd, tr) -> all_ok tr ->
    exists ns ls,
      (exists ev tr', tr = tr' ++ [(OpClose fl, RClose (Ok ns), ev)]) /\
      ns = map (fun i => p ++ dec (Z.of_nat i)) (seq 0 (length ls)) /\ NoDup ns /\
      Forall2 (fun n l => snd sd n = Some (write_records l) /\ l <> [] /\ key_sorted key ltb l) ns ls /\
      Permutation (concat ls) rs /\
      (forall n, ~ In n ns -> snd sd n = d1 n).
  Proof.
    intros Hb Hn R1 S R A. rewrite (between_sessions_fresh _ _ _ _ _ Hb Hn R1) in R.
    destruct (session_ok _ _ _ _ _ _ _ S R A) as (ns & ls & _ & H1 & H2 & H3 & H4 & H5).
    exists ns, ls. split; [exact H1|]. split; [exact H2|]. split; [rewrite H2; apply names_nodup|].
    split; [exact H3|]. split; [exact H4|exact H5].
  Qed.

  (** Without faults every call of a session succeeds. *)
  Lemma write_cache_nofault s d : sw_healthy s = true -> sw_file s = PClosed ->
    exists s1 d1 ev, write_cache s d no_fault = (s1, d1, Ok tt, ev) /\ sw_healthy s1 = true /\ sw_file s1 = PClosed /\
      sw_open s1 = sw_open s.
  Proof.
    intros Hh Hf. unfold M_Shard.write_cache. rewrite Hh, Hf. cbn [negb].
    destruct (sw_cache s); [do 3 eexists; split; [reflexivity|auto]|].
    cbn. do 3 eexists. split; [reflexivity|]. cbn. auto.
  Qed.
  Lemma sw_write_nofault s d r : sw_healthy s = true -> sw_file s = PClosed -> sw_open s = true ->
    exists s1 d1 ev, sw_write s d r no_fault = (s1, d1, Ok tt, ev) /\ sw_healthy s1 = true /\ sw_file s1 = PClosed /\
      sw_open s1 = true.
  Proof.
    intros Hh Hf Ho. unfold M_Shard.sw_write. rewrite Ho, Hh. cbn [negb].
    destruct (mb <? sw_bytes s).
    - destruct (write_cache_nofault s d Hh Hf) as (s1 & d1 & ev & -> & G1 & G2 & G3).
      do 3 eexists. split; [reflexivity|]. cbn. rewrite G3. auto.
    - do 3 eexists. split; [reflexivity|]. cbn. auto.
  Qed.
  Lemma session_body_nofault p ops rs : session_body p ops rs -> fault_free ops -> forall s d sd tr,
    sw_healthy s = true -> sw_file s = PClosed -> sw_open s = true ->
    sw_run (s, d) ops = (sd, tr) -> all_ok tr /\ sw_healthy (fst sd) = true /\ sw_file (fst sd) = PClosed /\ sw_open (fst sd) = true.
  Proof.
    induction 1 as [|ops rs B IH|r fl ops rs B IH]; intros FF s d sd tr Hh Hf Ho R.
    - injection R as <- <-. cbn. repeat split; auto. constructor.
    - cbn in R. destruct (sw_run (sw_set_prefix s p, d) ops) as [sd2 t2] eqn:E. injection R as <- <-.
      inversion FF; subst. destruct (IH H2 _ _ _ _ (Hh : sw_healthy (sw_set_prefix s p) = true) Hf eq_refl E) as (A & B1).
      split; [constructor; [exact I|exact A]|exact B1].
    - cbn [M_Shard.sw_run M_Shard.sw_step] in R. inversion FF as [|? ? F1 F2]; subst. cbn in F1. subst fl.
      destruct (sw_write_nofault s d r Hh Hf Ho) as (s1 & d1 & ev & X & G1 & G2 & G3). rewrite X in R. clear X.
      destruct (sw_run (s1, d1) ops) as [sd2 t2] eqn:E. injection R as <- <-.
      destruct (IH F2 _ _ _ _ G1 G2 G3 E) as (A & B1). split; [constructor; [reflexivity|exact A]|exact B1].
  Qed.
  Lemma session_nofault p ops rs d sd tr : session p ops rs -> fault_free ops ->
    sw_run (sw_init, d) (ops ++ [OpClose no_fault]) = (sd, tr) -> all_ok tr.
  Proof.
    intros (ops' & -> & B) FF R. rewrite sw_run_app in R. inversion FF as [|? ? _ F2]; subst. cbn in R.
    destruct (sw_run (sw_set_prefix sw_init p, d) ops') as [[s2 d2] t2] eqn:E.
    destruct (session_body_nofault _ _ _ B F2 (sw_set_prefix sw_init p) d _ _ eq_refl eq_refl eq_refl E) as (A & G1 & G2 & G3). cbn in G1, G2, G3.
    cbn [M_Shard.sw_step] in R. unfold M_Shard.sw_close in R. rewrite G3 in R. cbn [negb] in R.
    destruct (write_cache_nofault s2 d2 G1 G2) as (s3 & d3 & ev & X & _). rewrite X in R. cbn in R. injection R as <- <-.
    constructor; [exact I|]. apply Forall_app. split; [exact A|]. repeat constructor. cbn. eauto.
  Qed.

  (** C08: failures. *)
  Lemma write_cache_events s d fl s1 d1 o ev : write_cache s d fl = (s1, d1, o, ev) ->
    (Exists failed_io ev -> o = Err Internal /\ sw_healthy s1 = false) /\
    (Exists failed_any ev -> o = Err Internal) /\
    (o = Ok tt \/ o = Err Internal).
  Proof.
    unfold M_Shard.write_cache. intros H.
    assert (NE : ~ Exists failed_io [] /\ ~ Exists failed_any []) by (split; intros E; inversion E).
    destruct (negb (sw_healthy s)); [injection H as <- <- <- <-; tauto|].
    destruct (sw_cache s) as [|x c]; [injection H as <- <- <- <-; tauto|].
    set (srt := sort_by K key ltb (x :: c)) in *.
    destruct (match sw_file s with PClosed => fl_open fl | PDangling => true end).
    { injection H as <- <- <- <-. cbn. auto. }
    assert (W : forall n k, ~ Exists failed_io (map (fun j => EvWrite n j true) (seq 0 k)) /\
                 ~ Exists failed_any (map (fun j => EvWrite n j true) (seq 0 k))).
    { intros n k. split; intros E; apply Exists_exists in E; destruct E as (e & He & F);
        apply in_map_iff in He; destruct He as (j & <- & _); cbn in F; discriminate. }
    assert (D : forall (P : event -> Prop) n k b, ~ P (EvOpen n true) ->
       ~ Exists P (map (fun j => EvWrite n j true) (seq 0 k)) -> 
       Exists P (EvOpen n true :: map (fun j => EvWrite n j true) (seq 0 k) ++ [EvClose n b]) -> P (EvClose n b)).
    { intros P n k b N1 N2 E. inversion E as [? ? Q|? ? Q]; subst; [contradiction|].
      apply Exists_app in Q. destruct Q as [Q|Q]; [contradiction|]. inversion Q as [? ? Q2|? ? Q2]; subst; [exact Q2|inversion Q2]. }
    assert (Y : exists wrote closed wevs content,
       (SW (sw_prefix s) (shard_name (sw_prefix s) (sw_idx s + 1)) [] 0 (sw_idx s + 1) (sw_shards s ++ [sw_fname s])
         wrote (sw_open s) (if closed : bool then PClosed else PDangling), fs_set d (sw_fname s) content,
         if wrote && closed then Ok tt else Err Internal, EvOpen (sw_fname s) true :: wevs ++ [EvClose (sw_fname s) closed])
        = (s1, d1, o, ev) /\
       (wrote = true -> exists k, wevs = map (fun j => EvWrite (sw_fname s) j true) (seq 0 k))).
    { destruct (fl_write fl) as [[i cc]|]; [destruct (i <? length srt)%nat|]; destruct (fl_close fl) as [c2|];
        match type of H with context [EvClose _ ?b] =>
          eexists; exists b; do 2 eexists; split; [exact H|] end; intros Q; try discriminate Q; eexists; reflexivity. }
    destruct Y as (wrote & closed & wevs & content & Y & Hw). injection Y as <- <- <- <-. cbn [sw_healthy].
    destruct wrote; cbn [andb].
    - destruct (Hw eq_refl) as (k & ->). destruct (W (sw_fname s) k) as (W1 & W2). split; [|split].
      + intros E. apply D in E; [contradiction E|cbn; congruence|exact W1].
      + intros E. apply D in E; [|cbn; congruence|exact W2]. cbn in E. subst closed. reflexivity.
      + destruct closed; auto.
    - auto.
  Qed.

  Lemma step_events s d op s1 d1 r ev : sw_step (s, d) op = ((s1, d1), r, ev) ->
    (Exists failed_io ev -> res_err r /\ (~ is_close op -> sw_healthy s1 = false)) /\
    (Exists failed_any ev -> res_err r).
  Proof.
    intros H.
    assert (NE : ~ Exists failed_io [] /\ ~ Exists failed_any []) by (split; intros E; inversion E).
    destruct op as [p|r0 fl|fl]; cbn in H.
    - injection H as <- <- <- <-. tauto.
    - unfold M_Shard.sw_write in H.
      destruct (negb (sw_open s)); [injection H as <- <- <- <-; tauto|].
      destruct (negb (sw_healthy s)); [injection H as <- <- <- <-; tauto|].
      destruct (mb <? sw_bytes s); [|injection H as <- <- <- <-; tauto].
      destruct (write_cache s d fl) as [[[s3 d3] st] e3] eqn:E3.
      destruct (write_cache_events _ _ _ _ _ _ _ E3) as (P1 & P2 & P3).
      destruct P3 as [P3|P3]; subst st; injection H as <- <- <- <-.
      + split; [intros E; destruct (P1 E); discriminate|intros E; specialize (P2 E); discriminate].
      + cbn. split; [intros E; split; [eauto|intros _; apply P1; exact E]|eauto].
    - unfold M_Shard.sw_close in H. destruct (negb (sw_open s)); [injection H as <- <- <- <-; tauto|].
      destruct (write_cache s d fl) as [[[s3 d3] st] e3] eqn:E3.
      destruct (write_cache_events _ _ _ _ _ _ _ E3) as (P1 & P2 & P3).
      injection H as <- <- <- <-. cbn.
      split; intros E; [destruct (P1 E) as (-> & _)|rewrite (P2 E)]; cbn; [split; [eauto|tauto]|eauto].
  Qed.

  Lemma step_unhealthy s d op s1 d1 r ev : sw_healthy s = false -> sw_step (s, d) op = ((s1, d1), r, ev) ->
    (~ is_close op -> sw_healthy s1 = false) /\ (is_prefix_op op \/ res_err r).
  Proof.
    intros Hh H. destruct op as [p|r0 fl|fl]; cbn in H.
    - injection H as <- <- <- <-. cbn. auto.
    - unfold M_Shard.sw_write in H. rewrite Hh in H. cbn in H.
      destruct (negb (sw_open s)); injection H as <- <- <- <-; cbn; split; eauto.
    - unfold M_Shard.sw_close, M_Shard.write_cache in H. rewrite Hh in H. cbn in H.
      destruct (negb (sw_open s)); injection H as <- <- <- <-; cbn; split; eauto; tauto.
  Qed.

  Lemma run_unhealthy ops : forall s d sd tr, sw_healthy s = false -> sw_run (s, d) ops = (sd, tr) ->
    forall j op r ev, nth_error tr j = Some (op, r, ev) ->
    (forall k op' r' ev', (k < j)%nat -> nth_error tr k = Some (op', r', ev') -> ~ is_close op') ->
    ~ is_prefix_op op -> res_err r.
  Proof.
    induction ops as [|o ops IH]; intros s d sd tr Hh R j op r ev Hj Hk Hp; cbn [M_Shard.sw_run] in R.
    - injection R as <- <-. destruct j; discriminate.
    - destruct (sw_step (s, d) o) as [[[s2 d2] r2] ev2] eqn:E. destruct (sw_run (s2, d2) ops) as [sd3 t3] eqn:E3.
      injection R as <- <-. destruct (step_unhealthy _ _ _ _ _ _ _ Hh E) as (U1 & U2).
      destruct j as [|j]; cbn in Hj.
      + injection Hj as -> -> ->. tauto.
      + eapply (IH _ _ _ _ (U1 (Hk 0%nat _ _ _ (Nat.lt_0_succ _) eq_refl)) E3 j op r ev Hj); [|exact Hp].
        intros k op' r' ev' Hkj Hn. apply (Hk (S k) op' r' ev'); [lia|exact Hn].
  Qed.

  Lemma sticky ops : forall sd0 sd tr, sw_run sd0 ops = (sd, tr) ->
    forall i op r ev, nth_error tr i = Some (op, r, ev) -> Exists failed_io ev ->
    res_err r /\
    forall j op' r' ev', (i < j)%nat -> nth_error tr j = Some (op', r', ev') ->
      (forall k op'' r'' ev'', (i <= k < j)%nat -> nth_error tr k = Some (op'', r'', ev'') -> ~ is_close op'') ->
      ~ is_prefix_op op' -> res_err r'.
  Proof.
    induction ops as [|o ops IH]; intros [s d] sd tr R i op r ev Hi Hev; cbn [M_Shard.sw_run] in R.
    - injection R as <- <-. destruct i; discriminate.
    - destruct (sw_step (s, d) o) as [[[s2 d2] r2] ev2] eqn:E. destruct (sw_run (s2, d2) ops) as [sd3 t3] eqn:E3.
      injection R as <- <-. destruct i as [|i]; cbn in Hi.
      + injection Hi as -> -> ->. destruct (step_events _ _ _ _ _ _ _ E) as (S1 & _). destruct (S1 Hev) as (S2 & S3).
        split; [exact S2|]. intros j op' r' ev' Hj Hn Hk Hp. destruct j as [|j]; [lia|]. cbn in Hn.
        assert (Hh : sw_healthy s2 = false) by (apply S3; eapply (Hk 0%nat); [lia|reflexivity]).
        eapply (run_unhealthy _ _ _ _ _ Hh E3 j); [exact Hn| |exact Hp].
        intros k op'' r'' ev'' Hkj Hn2. apply (Hk (S k) op'' r'' ev''); [lia|exact Hn2].
      + destruct (IH _ _ _ E3 i op r ev Hi Hev) as (G1 & G2). split; [exact G1|].
        intros j op' r' ev' Hj Hn Hk Hp. destruct j as [|j]; [lia|]. cbn in Hn.
        eapply (G2 j); [lia|exact Hn| |exact Hp].
        intros k op'' r'' ev'' Hkj Hn2. apply (Hk (S k) op'' r'' ev''); [lia|exact Hn2].
  Qed.

  Lemma ok_no_failure ops : forall sd0 sd tr, sw_run sd0 ops = (sd, tr) ->
    forall i op r ev, nth_error tr i = Some (op, r, ev) -> res_ok r -> ~ Exists failed_any ev.
  Proof.
    induction ops as [|o ops IH]; intros [s d] sd tr R i op r ev Hi Hr; cbn [M_Shard.sw_run] in R.
    - injection R as <- <-. destruct i; discriminate.
    - destruct (sw_step (s, d) o) as [[[s2 d2] r2] ev2] eqn:E. destruct (sw_run (s2, d2) ops) as [sd3 t3] eqn:E3.
      injection R as <- <-. destruct i as [|i]; cbn in Hi.
      + injection Hi as -> -> ->. intros F. destruct (step_events _ _ _ _ _ _ _ E) as (_ & S1). specialize (S1 F).
        destruct r as [|o'|o']; cbn in *; [contradiction| |]; destruct S1 as (c & ->); [discriminate|destruct Hr; discriminate].
      + eapply IH; eassumption.
  Qed.

  (** C07: interleavings. *)
  Lemma interleave_perm {A} ts (l : list A) : interleave ts l -> Permutation l (concat ts).
  Proof.
    induction 1 as [ts H|ts1 x t ts2 l H IH].
    - induction H as [|t ts -> H IH]; [reflexivity|exact IH].
    - rewrite IH, !concat_app. cbn [concat]. cbn [app]. apply Permutation_middle.
  Qed.
End L.
