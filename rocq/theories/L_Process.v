(** Lemmas about ProcessRecordFile. *)
From Verif Require Import Base M_RecordIO L_RecordIO M_Dec L_Dec M_Shard S_Shard L_Shard L_Merge M_Process.

Lemma firstn_extend {A} (l : list A) a b : (a <= b)%nat -> firstn a l ++ firstn (b - a) (skipn a l) = firstn b l.
Proof.
  revert a b; induction l as [|x l IH]; intros a b H.
  - rewrite !firstn_nil, skipn_nil, firstn_nil. reflexivity.
  - destruct a as [|a]; cbn [firstn skipn app]; [rewrite Nat.sub_0_r; reflexivity|].
    destruct b as [|b]; [lia|]. cbn [firstn Nat.sub]. f_equal. apply IH. lia.
Qed.

Lemma slices_prefix {A} (l : list A) pts k :
  concat (map (fun j => slice l (thread_range pts (length l) j)) (seq 0 k)) = firstn (Nat.min (k * pts) (length l)) l.
Proof.
  induction k as [|k IH]; [reflexivity|].
  rewrite seq_S, map_app, concat_app, IH. cbn [map concat]. rewrite app_nil_r, Nat.add_0_l.
  unfold slice, thread_range. cbn [fst snd].
  destruct (Nat.le_gt_cases (k * pts) (length l)) as [H|H].
  - replace (Nat.min (k * pts) (length l)) with (k * pts)%nat by lia.
    rewrite firstn_extend by lia. f_equal. rewrite (Nat.mul_add_distr_r k 1 pts). cbn. lia.
  - rewrite (skipn_all2 l) by lia. rewrite firstn_nil, app_nil_r. f_equal. cbn. lia.
Qed.

Lemma ceil_cover n t : (1 <= t)%nat -> (n <= t * ((n + t - 1) / t))%nat.
Proof.
  intros Ht. pose proof (Nat.div_mod (n + t - 1) t ltac:(lia)) as E.
  pose proof (Nat.mod_upper_bound (n + t - 1) t ltac:(lia)). lia.
Qed.

Lemma thread_split {A} (l : list A) t pts : (1 <= t)%nat -> per_thread_size (length l) t = Ok pts ->
  concat (map (fun j => slice l (thread_range pts (length l) j)) (seq 0 t)) = l.
Proof.
  intros Ht H. rewrite slices_prefix. destruct t as [|t]; [lia|].
  assert (Hp : pts = ((length l + S t - 1) / S t)%nat) by (unfold per_thread_size in H; congruence). subst pts.
  pose proof (ceil_cover (length l) (S t) Ht). rewrite Nat.min_r by lia. apply firstn_all.
Qed.

Lemma ranges_disjoint pts n i j : (i < j)%nat -> (snd (thread_range pts n i) <= fst (thread_range pts n j))%nat.
Proof. intros H. unfold thread_range. cbn [fst snd]. assert ((i + 1) * pts <= j * pts)%nat by (apply Nat.mul_le_mono_r; lia). lia. Qed.

Lemma range_bound pts n j : (snd (thread_range pts n j) <= n)%nat.
Proof. unfold thread_range. cbn. lia. Qed.

Lemma ranges_cover n t pts i : (1 <= t)%nat -> per_thread_size n t = Ok pts -> (i < n)%nat ->
  exists j, (j < t)%nat /\ (fst (thread_range pts n j) <= i < snd (thread_range pts n j))%nat.
Proof.
  intros Ht H Hi. destruct t as [|t]; [lia|].
  assert (Hp : pts = ((n + S t - 1) / S t)%nat) by (unfold per_thread_size in H; congruence).
  pose proof (ceil_cover n (S t) Ht) as C. rewrite <- Hp in C. clear H Hp.
  assert (Hpos : (0 < pts)%nat) by (destruct pts; lia).
  exists (i / pts)%nat. unfold thread_range. cbn [fst snd].
  pose proof (Nat.div_mod i pts ltac:(lia)) as E. pose proof (Nat.mod_upper_bound i pts ltac:(lia)).
  split; [apply Nat.div_lt_upper_bound; lia|]. split; nia.
Qed.

Lemma read_chunk_records n : forall rs, Forall short rs ->
  read_chunk n (write_records rs) = Ok (firstn n rs, write_records (skipn n rs)).
Proof.
  induction n as [|n IH]; intros rs H; [reflexivity|]. cbn [read_chunk].
  destruct rs as [|r rs]; [reflexivity|]. inversion H; subst.
  rewrite write_records_cons, has_more_encode, read_record_encode by assumption. cbn [bind].
  rewrite IH by assumption. reflexivity.
Qed.

Section L.
  Context {K : Type} (key : bytes -> K) (ltb : K -> K -> bool) (HO : strict_total ltb) (mb : Z).
  Context (transform : bytes -> outcome bytes) (chunk threads : nat).
  Context (p : bytes) (d0 : fs).
  Notation inv := (inv key ltb p d0).
  Notation write_all := (write_all K key ltb mb).
  Notation write_threads := (write_threads K key ltb mb).
  Notation process_loop := (process_loop K key ltb mb transform chunk threads).
  Definition ok_or_err (r : bytes) := (exists o, transform r = Ok o) \/ (exists c, transform r = Err c).
  Definition maps_to := Forall2 (fun r o => transform r = Ok o).

  Lemma write_all_inv rs : forall w x, inv w (fst x) (snd x) ->
    exists x1, write_all x rs = (x1, Ok tt) /\ inv (w ++ rs) (fst x1) (snd x1).
  Proof.
    induction rs as [|r rs IH]; intros w x I; cbn [M_Process.write_all].
    - exists x. rewrite app_nil_r. auto.
    - destruct (sw_write_nofault key ltb mb (fst x) (snd x) r) as (s1 & d1 & ev & E & _);
        [apply (i_healthy _ _ _ _ _ _ _ I)|apply (i_file _ _ _ _ _ _ _ I)|apply (i_open _ _ _ _ _ _ _ I)|].
      rewrite E. pose proof (sw_write_ok key ltb HO mb _ _ _ _ _ _ _ _ _ _ I E) as I1.
      destruct (IH (w ++ [r]) (s1, d1) I1) as (x1 & E1 & I2). exists x1. split; [exact E1|].
      rewrite <- app_assoc in I2. exact I2.
  Qed.

  Lemma write_threads_inv res : Forall (fun o => (exists l, o = Ok l) \/ (exists c, o = Err c)) res ->
    forall w x, inv w (fst x) (snd x) ->
    exists x1, (exists rss, res = map (@Ok (list bytes)) rss /\ write_threads x res = (x1, Ok tt) /\ inv (w ++ concat rss) (fst x1) (snd x1)) \/
               (exists c, In (Err c) res /\ write_threads x res = (x1, Err c)).
  Proof.
    induction 1 as [|o res [(l & ->)|(c & ->)] H IH]; intros w x I; cbn [M_Process.write_threads].
    - exists x. left. exists []. cbn. rewrite app_nil_r. auto.
    - destruct (write_all_inv l w x I) as (x1 & E & I1). rewrite E.
      destruct (IH _ _ I1) as (x2 & [(rss & -> & E2 & I2)|(c & Hin & E2)]).
      + exists x2. left. exists (l :: rss). cbn [map concat]. rewrite app_assoc. auto.
      + exists x2. right. exists c. split; [right; exact Hin|exact E2].
    - exists x. right. exists c. split; [left; reflexivity|reflexivity].
  Qed.

  Lemma mapM_ok_or_err rs : Forall ok_or_err rs ->
    (exists os, mapM transform rs = Ok os) \/ (exists c r, mapM transform rs = Err c /\ In r rs /\ transform r = Err c).
  Proof.
    induction 1 as [|r rs [(o & E)|(c & E)] H IH]; cbn [mapM].
    - eauto.
    - rewrite E. cbn [bind]. destruct IH as [(os & ->)|(c & r' & -> & Hin & Er)]; [left; cbn; eauto|].
      right. exists c, r'. cbn. auto.
    - right. rewrite E. exists c, r. cbn. auto.
  Qed.

  Lemma slice_incl {A} (l : list A) r x : In x (slice l r) -> In x l.
  Proof.
    unfold slice. intros H. rewrite <- (firstn_skipn (fst r) l). apply in_or_app. right.
    rewrite <- (firstn_skipn (snd r - fst r) (skipn (fst r) l)). apply in_or_app. left. exact H.
  Qed.

  Lemma maps_to_concat (ls os : list (list bytes)) : Forall2 maps_to ls os -> maps_to (concat ls) (concat os).
  Proof. induction 1; cbn; [constructor|]. apply Forall2_app; assumption. Qed.

  Lemma one_chunk w x ck pts : (1 <= threads)%nat -> Forall ok_or_err ck -> per_thread_size (length ck) threads = Ok pts ->
    inv w (fst x) (snd x) ->
    exists x1, (exists os, maps_to ck os /\ write_threads x (thread_results transform threads ck pts) = (x1, Ok tt) /\ inv (w ++ os) (fst x1) (snd x1)) \/
               (exists c r, In r ck /\ transform r = Err c /\ write_threads x (thread_results transform threads ck pts) = (x1, Err c)).
  Proof.
    intros Ht Hf Hp I.
    set (sl := map (fun j => slice ck (thread_range pts (length ck) j)) (seq 0 threads)).
    assert (Er : thread_results transform threads ck pts = map (mapM transform) sl).
    { unfold thread_results, sl. rewrite map_map. reflexivity. }
    assert (Hsl : Forall (Forall ok_or_err) sl).
    { apply Forall_forall. intros l Hl. apply in_map_iff in Hl. destruct Hl as (j & <- & _).
      apply Forall_forall. intros r Hr. apply slice_incl in Hr. rewrite Forall_forall in Hf. apply Hf. exact Hr. }
    assert (Hc : concat sl = ck) by (apply thread_split; assumption).
    assert (Hres : Forall (fun o => (exists l, o = Ok l) \/ (exists c, o = Err c)) (map (mapM transform) sl)).
    { apply Forall_map. eapply Forall_impl; [|exact Hsl]. intros l Hl.
      destruct (mapM_ok_or_err l Hl) as [(os & ->)|(c & r & -> & _)]; eauto. }
    rewrite Er. destruct (write_threads_inv _ Hres w x I) as (x1 & [(rss & E & Ew & I1)|(c & Hin & Ew)]); exists x1.
    - left. exists (concat rss). split; [|split; [exact Ew|exact I1]]. rewrite <- Hc. apply maps_to_concat.
      clear - E. revert rss E. induction sl as [|l sl IH]; intros [|os rss] E; cbn in E; try discriminate; constructor.
      + injection E as E1 _. apply mapM_ok in E1. exact E1.
      + apply IH. injection E as _ E2. exact E2.
    - right. apply in_map_iff in Hin. destruct Hin as (l & El & Hl).
      rewrite Forall_forall in Hsl. destruct (mapM_ok_or_err l (Hsl l Hl)) as [(os & E)|(c' & r & E & Hr & Ht')]; [congruence|].
      exists c, r. split; [rewrite <- Hc; apply in_concat; eauto|]. split; [congruence|exact Ew].
  Qed.

  Lemma loop_inv fuel : (1 <= threads)%nat -> (1 <= chunk)%nat -> forall ins w x, Forall short ins -> Forall ok_or_err ins ->
    (length ins < fuel)%nat -> inv w (fst x) (snd x) ->
    exists x1, (exists os, maps_to ins os /\ process_loop fuel p (write_records ins) x = (x1, Ok tt) /\ inv (w ++ os) (fst x1) (snd x1)) \/
               (exists c r, In r ins /\ transform r = Err c /\ process_loop fuel p (write_records ins) x = (x1, Err c)).
  Proof.
    intros Ht Hc. induction fuel as [|k IH]; intros ins w x Hs Hf Hl I; [lia|]. cbn [M_Process.process_loop].
    destruct ins as [|r ins'].
    - cbn [write_records flat_map f_has_more]. exists x. left. exists []. rewrite app_nil_r. split; [constructor|auto].
    - set (ins := r :: ins') in *.
      assert (Hm : f_has_more (write_records ins) = true) by (unfold ins; rewrite write_records_cons; apply has_more_encode).
      rewrite Hm, read_chunk_records by exact Hs.
      assert (Hp : exists pts, per_thread_size (length (firstn chunk ins)) threads = Ok pts).
      { unfold per_thread_size. destruct threads; [lia|eauto]. }
      destruct Hp as (pts & Hp). rewrite Hp.
      assert (Hin : forall y, In y (firstn chunk ins) \/ In y (skipn chunk ins) -> In y ins).
      { intros y Hy. rewrite <- (firstn_skipn chunk ins). apply in_or_app. exact Hy. }
      assert (Hf1 : Forall ok_or_err (firstn chunk ins)).
      { apply Forall_forall. intros y Hy. rewrite Forall_forall in Hf. apply Hf. apply Hin. left; exact Hy. }
      assert (I0 : inv w (fst (sw_set_prefix (fst x) p, snd x)) (snd (sw_set_prefix (fst x) p, snd x))).
      { cbn [fst snd]. apply inv_prefix. exact I. }
      destruct (one_chunk w (sw_set_prefix (fst x) p, snd x) (firstn chunk ins) pts Ht Hf1 Hp I0)
        as (x1 & [(os & M & E & I1)|(c & y & Hy & Ey & E)]); rewrite E.
      + destruct (IH (skipn chunk ins) (w ++ os) x1) as (x2 & [(os2 & M2 & E2 & I2)|(c & y & Hy & Ey & E2)]).
        * apply Forall_forall. intros y Hy. rewrite Forall_forall in Hs. apply Hs. apply Hin. right; exact Hy.
        * apply Forall_forall. intros y Hy. rewrite Forall_forall in Hf. apply Hf. apply Hin. right; exact Hy.
        * rewrite skipn_length. unfold ins in *. cbn [length] in *. lia.
        * exact I1.
        * exists x2. left. exists (os ++ os2). split; [|split; [exact E2|rewrite app_assoc; exact I2]].
          rewrite <- (firstn_skipn chunk ins). apply Forall2_app; assumption.
        * exists x2. right. exists c, y. split; [apply Hin; right; exact Hy|auto].
      + exists x1. right. exists c, y. split; [apply Hin; left; exact Hy|auto].
  Qed.
End L.

Ltac loop_rw E := match type of E with _ = ?v =>
  match goal with |- context [process_loop ?a ?b ?c ?d ?e ?f ?g ?h ?i ?j ?k] =>
    replace (process_loop a b c d e f g h i j k) with v by (symmetry; exact E) end end.

Section P.
  Context {K : Type} (key : bytes -> K) (ltb : K -> K -> bool) (HO : strict_total ltb) (mb : Z).
  Context (transform : bytes -> outcome bytes) (chunk threads : nat).
  Notation process := (process_record_file K key ltb mb transform chunk threads).

  Lemma existsb_names q p k : (forall i, q <> p ++ dec (Z.of_nat i)) -> existsb (bytes_eqb q) (names p k) = false.
  Proof.
    intros H. destruct (existsb (bytes_eqb q) (names p k)) eqn:E; [|reflexivity]. apply existsb_exists in E.
    destruct E as (n & Hn & E). apply bytes_eqb_eq in E. subst n. apply in_map_iff in Hn. destruct Hn as (i & E & _).
    exfalso. apply (H i). symmetry. exact E.
  Qed.

  Lemma out_not_shard out k : ~ In out (names out k).
  Proof.
    intros H. apply in_map_iff in H. destruct H as (i & E & _). unfold shard_name in E.
    assert (dec (Z.of_nat i) = []).
    { apply (f_equal (@length byte)) in E. rewrite app_length in E. destruct (dec (Z.of_nat i)); [reflexivity|cbn in E; lia]. }
    destruct (dec_nonneg (Z.of_nat i)) as (G & _); [lia|]. contradiction.
  Qed.

  Lemma process_ok_any ties fuel d input output f ins outs :
    (1 <= chunk)%nat -> (1 <= threads)%nat -> (length ins < fuel)%nat ->
    d input = Some f -> (forall x, process_loop K key ltb mb transform chunk threads fuel output f x = process_loop K key ltb mb transform chunk threads fuel output (write_records ins) x) -> Forall short ins -> Forall short outs ->
    Forall2 (fun r o => transform r = Ok o) ins outs ->
    (forall i, input <> output ++ dec (Z.of_nat i)) ->
    exists d' rs k, process ties fuel d input output = (d', Ok tt) /\
      d' output = Some (write_records rs) /\ key_sorted key ltb rs /\ Permutation rs outs /\
      (forall i, (i < k)%nat -> d' (output ++ dec (Z.of_nat i)) = None) /\
      (forall n, n <> output -> (forall i, (i < k)%nat -> n <> output ++ dec (Z.of_nat i)) -> d' n = d n).
  Proof.
    intros Hc Ht Hfuel Hd HL Hs Hso Hm Hname. unfold process_record_file. rewrite Hd, HL.
    assert (I0 : inv key ltb output d [] (sw_set_prefix sw_init output) d).
    { constructor; cbn; auto. exists []. cbn. repeat split; auto. }
    assert (Hoe : Forall (ok_or_err transform) ins).
    { clear - Hm. induction Hm; constructor; [left; eauto|assumption]. }
    destruct (loop_inv key ltb HO mb transform chunk threads output d fuel Ht Hc ins []
      (sw_set_prefix sw_init output, d) Hs Hoe Hfuel I0) as ([s1 d1] & [(os & M & E & I1)|(c & r & Hr & Er & E)]).
    2:{ exfalso. clear - Hm Hr Er. induction Hm as [|y o l l' Hy Hm IH]; [contradiction|].
        destruct Hr as [->|Hr]; [congruence|auto]. }
    assert (os = outs).
    { clear - M Hm. revert os M; induction Hm as [|y o l l' Hy Hm IH]; intros os M; inversion M as [|? o2 ? l2 Hy2 Hm2]; subst; [reflexivity|].
      f_equal; [congruence|apply IH; assumption]. }
    subst os. loop_rw E. cbn [fst snd app] in I1.
    assert (Ex : existsb (bytes_eqb input) (sw_shards s1) = false).
    { destruct (i_shards _ _ _ _ _ _ _ I1) as (ls & -> & _). apply existsb_names. exact Hname. }
    rewrite Ex. unfold sw_close. rewrite (i_open _ _ _ _ _ _ _ I1). cbn [negb].
    destruct (write_cache_nofault key ltb s1 d1 (i_healthy _ _ _ _ _ _ _ I1) (i_file _ _ _ _ _ _ _ I1))
      as (s2 & d2 & ev & Ew & _).
    rewrite Ew. cbn [bind].
    destruct (write_cache_ok key ltb HO _ _ _ _ _ _ _ _ _ I1 Ew) as (I2 & Hcache).
    destruct (i_shards _ _ _ _ _ _ _ I2) as (ls & Ens & _ & F & P). rewrite Hcache, app_nil_r in P.
    assert (Fs : Forall (Forall short) ls).
    { apply Forall_forall. intros l Hl. apply Forall_forall. intros r Hr. rewrite Forall_forall in Hso. apply Hso.
      eapply Permutation_in; [exact P|]. apply in_concat. eauto. }
    assert (Fk : Forall (key_sorted key ltb) ls).
    { clear - F. induction F as [|n l ns ls (_ & _ & A) F IH]; constructor; assumption. }
    assert (Fd : Forall2 (fun n l => d2 n = Some (write_records l)) (sw_shards s2) ls).
    { clear - F. induction F as [|n l ns ls (A & _) F IH]; constructor; assumption. }
    destruct (merge_ok key ltb HO ties d2 (sw_shards s2) ls output Fd Fs Fk) as (d3 & rs & Em & M1 & M2 & M3 & M4).
    { rewrite Ens. apply out_not_shard. }
    rewrite Em.
    destruct (delete_all_ok key d3 (sw_shards s2)) as (d4 & Ed & D1 & D2).
    { rewrite Ens. apply names_nodup. }
    { intros n Hn. rewrite M4 by (intros ->; rewrite Ens in Hn; apply out_not_shard in Hn; exact Hn).
      clear - Fd Hn. induction Fd as [|m l ns ls A F IH]; [contradiction|]. destruct Hn as [->|Hn]; [congruence|auto]. }
    rewrite Ed. exists d4, rs, (length ls). split; [reflexivity|].
    split; [rewrite D2; [exact M1|rewrite Ens; apply out_not_shard]|]. split; [exact M2|].
    split; [rewrite M3; exact P|]. split.
    - intros i Hi. apply D1. rewrite Ens. apply in_map_iff. exists i. split; [reflexivity|]. apply in_seq. lia.
    - intros n Hn Hi. assert (Hni : ~ In n (sw_shards s2)).
      { rewrite Ens. intros G. apply in_map_iff in G. destruct G as (i & G & Hin). apply in_seq in Hin. apply (Hi i); [lia|]. symmetry. exact G. }
      rewrite D2 by exact Hni. rewrite M4 by exact Hn. apply (i_other _ _ _ _ _ _ _ I2). exact Hni.
  Qed.

  Lemma process_ok ties fuel d input output ins outs :
    (1 <= chunk)%nat -> (1 <= threads)%nat -> (length ins < fuel)%nat ->
    d input = Some (write_records ins) -> Forall short ins -> Forall short outs ->
    Forall2 (fun r o => transform r = Ok o) ins outs ->
    (forall i, input <> output ++ dec (Z.of_nat i)) ->
    exists d' rs k, process ties fuel d input output = (d', Ok tt) /\
      d' output = Some (write_records rs) /\ key_sorted key ltb rs /\ Permutation rs outs /\
      (forall i, (i < k)%nat -> d' (output ++ dec (Z.of_nat i)) = None) /\
      (forall n, n <> output -> (forall i, (i < k)%nat -> n <> output ++ dec (Z.of_nat i)) -> d' n = d n).
  Proof. intros Hc Ht Hfuel Hd. apply process_ok_any with (1 := Hc) (2 := Ht) (3 := Hfuel) (4 := Hd). reflexivity. Qed.

  Lemma process_err ties fuel d input output ins :
    (1 <= chunk)%nat -> (1 <= threads)%nat -> (length ins < fuel)%nat ->
    d input = Some (write_records ins) -> Forall short ins ->
    (forall r, In r ins -> (exists o, transform r = Ok o) \/ (exists c, transform r = Err c)) ->
    (exists r c, In r ins /\ transform r = Err c) ->
    exists d' c r, process ties fuel d input output = (d', Err c) /\ In r ins /\ transform r = Err c.
  Proof.
    intros Hc Ht Hfuel Hd Hs Hoe (r0 & c0 & Hr0 & Er0). unfold process_record_file. rewrite Hd.
    assert (I0 : inv key ltb output d [] (sw_set_prefix sw_init output) d).
    { constructor; cbn; auto. exists []. cbn. repeat split; auto. }
    assert (Hoe' : Forall (ok_or_err transform) ins) by (apply Forall_forall; exact Hoe).
    destruct (loop_inv key ltb HO mb transform chunk threads output d fuel Ht Hc ins []
      (sw_set_prefix sw_init output, d) Hs Hoe' Hfuel I0) as ([s1 d1] & [(os & M & E & I1)|(c & r & Hr & Er & E)]).
    - exfalso. clear - M Hr0 Er0. induction M as [|y o l l' Hy Hm IH]; [contradiction|]. destruct Hr0 as [->|Hr]; [congruence|auto].
    - loop_rw E. exists d1, c, r. auto.
  Qed.

  Lemma zero_threads ties fuel d input output r rs : threads = O -> (1 <= fuel)%nat -> Forall short (r :: rs) ->
    d input = Some (write_records (r :: rs)) -> snd (process ties fuel d input output) = UB.
  Proof.
    intros -> Hf Hs Hd. unfold process_record_file. rewrite Hd. destruct fuel as [|k]; [lia|]. cbn [process_loop].
    rewrite read_chunk_records by exact Hs. rewrite write_records_cons, has_more_encode. reflexivity.
  Qed.

  Lemma zero_chunk ties fuel d input output r rs : chunk = O -> (1 <= threads)%nat -> Forall short (r :: rs) ->
    d input = Some (write_records (r :: rs)) -> snd (process ties fuel d input output) = Diverge.
  Proof.
    intros -> Ht Hs Hd. unfold process_record_file. rewrite Hd.
    assert (G : forall fuel x, inv key ltb output d [] (fst x) (snd x) ->
      exists x1, process_loop K key ltb mb transform 0 threads fuel output (write_records (r :: rs)) x = (x1, Diverge)).
    { clear fuel. induction fuel as [|k IH]; intros x I; cbn [process_loop]; [eauto|].
      rewrite write_records_cons, has_more_encode, <- write_records_cons. cbn [read_chunk length].
      assert (Hp : exists pts, per_thread_size 0 threads = Ok pts) by (unfold per_thread_size; destruct threads; [lia|eauto]).
      destruct Hp as (pts & Hp). rewrite Hp.
      destruct (one_chunk key ltb HO mb transform threads output d [] (sw_set_prefix (fst x) output, snd x) [] pts Ht (Forall_nil _) Hp)
        as (x1 & [(os & M & E & I1)|(c & y & [] & _)]); [apply inv_prefix; exact I|].
      inversion M; subst. rewrite E. apply IH. exact I1. }
    destruct (G fuel (sw_set_prefix sw_init output, d)) as ([s1 d1] & E).
    { constructor; cbn; auto. exists []. cbn. repeat split; auto. }
    loop_rw E. reflexivity.
  Qed.
End P.
