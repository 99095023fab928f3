(** Lemmas for C105: ProcessRecordFile on any input file. *)
From Verif Require Import Base M_RecordIO L_RecordIO S_RecordIO M_Dec M_Shard S_Shard L_Shard L_Merge M_Process L_Process.

Lemma records_cases f ins e : read_records f = (ins, e) ->
  (f_has_more f = false /\ ins = [] /\ e = Ok tt) \/
  (f_has_more f = true /\ exists r f' l, read_record f = Ok (r, f') /\ ins = r :: l /\ read_records f' = (l, e)) \/
  (f_has_more f = true /\ ins = [] /\ e <> Ok tt /\ forall B (k : bytes * bytes -> outcome B), bind (read_record f) k = bind e (fun _ => UB)).
Proof.
  unfold read_records. cbn [read_all]. destruct (f_has_more f) eqn:Hf; [|intros E; injection E as <- <-; auto].
  destruct (read_record f) as [[r f']|c| | |] eqn:E.
  - pose proof (read_record_shrinks _ _ _ E). rewrite (read_all_fuel _ (S (length f'))) by lia. fold (read_records f'). destruct (read_records f') as [l e'] eqn:E'. intros X. injection X as <- <-. right. left. split; [reflexivity|]. exists r, f', l. auto.
  - intros X. injection X as <- <-. right. right. repeat split; try discriminate.
  - intros X. injection X as <- <-. right. right. repeat split; try discriminate.
  - intros X. injection X as <- <-. right. right. repeat split; try discriminate.
  - intros X. injection X as <- <-. right. right. repeat split; try discriminate.
Qed.
Lemma chunk_any n : forall f ins e, read_records f = (ins, e) ->
  (exists f', read_chunk n f = Ok (firstn n ins, f') /\ read_records f' = (skipn n ins, e)) \/
  (e <> Ok tt /\ read_chunk n f = bind e (fun _ => UB)).
Proof.
  induction n as [|n IH]; intros f ins e E; [left; exists f; split; [reflexivity|exact E]|]. cbn [read_chunk].
  destruct (records_cases f ins e E) as [(H & -> & ->)|[(H & r & f' & l & R & -> & E')|(H & -> & N & B)]]; rewrite H.
  - left. exists f. cbn. auto.
  - rewrite R. cbn [bind]. destruct (IH _ _ _ E') as [(f2 & C & E2)|(N & C)]; rewrite C.
    + left. exists f2. cbn. auto.
    + right. split; [exact N|]. destruct e as [[]| | | |]; [contradiction|reflexivity..].
  - right. split; [exact N|]. rewrite B. reflexivity.
Qed.
Lemma divided_short f rs e : divided f rs e -> Forall short rs.
Proof.
  induction 1 as [|h r f rs e (i & l & _ & _ & _ & _ & E) D IH| | |]; constructor; try exact IH. unfold short. rewrite E. apply Z.mod_pos_bound. lia.
Qed.
Lemma more_write rs : f_has_more (write_records rs) = match rs with [] => false | _ => true end.
Proof. destruct rs; [reflexivity|]. rewrite write_records_cons. apply has_more_encode. Qed.

Section Any.
  Context {K : Type} (key : bytes -> K) (ltb : K -> K -> bool) (HO : strict_total ltb) (mb : Z).
  Context (transform : bytes -> outcome bytes) (chunk threads : nat).
  Notation process_loop := (process_loop K key ltb mb transform chunk threads).
  Notation process := (process_record_file K key ltb mb transform chunk threads).

  (** A file that can be read to its end is processed like the file that a writer makes of its records. *)
  Lemma loop_clean out fuel : forall f ins x, read_records f = (ins, Ok tt) -> Forall short ins -> process_loop fuel out f x = process_loop fuel out (write_records ins) x.
  Proof.
    induction fuel as [|k IH]; intros f ins x E S; [reflexivity|]. cbn [M_Process.process_loop]. rewrite more_write.
    assert (H : f_has_more f = match ins with [] => false | _ => true end). { destruct (records_cases f ins _ E) as [(H & -> & _)|[(H & r & f' & l & _ & -> & _)|(_ & _ & N & _)]]; [exact H|exact H|contradiction]. }
    rewrite H. destruct ins as [|r ins']; [reflexivity|]. set (ins := r :: ins') in *. destruct (chunk_any chunk f ins _ E) as [(f' & C & E')|(N & _)]; [|contradiction]. rewrite C, (read_chunk_records chunk ins S).
    destruct (per_thread_size (length (firstn chunk ins)) threads); try reflexivity. match goal with |- (let (_, _) := ?z in _) = _ => destruct z as [x1 o] | |- match ?z with _ => _ end = _ => destruct z as [x1 o] end.
    destruct o; try reflexivity. apply IH; [exact E'|]. apply Forall_forall. intros y Hy. rewrite Forall_forall in S. apply S. rewrite <- (firstn_skipn chunk ins). apply in_or_app. right. exact Hy.
  Qed.
  Lemma threads_frame out d0 res : Forall (fun o => (exists l, o = Ok l) \/ (exists c, o = Err c)) res -> forall w x, inv key ltb out d0 w (fst x) (snd x) ->
    exists w', inv key ltb out d0 w' (fst (fst (write_threads K key ltb mb x res))) (snd (fst (write_threads K key ltb mb x res))).
  Proof.
    induction 1 as [|o res [(l & ->)|(c & ->)] H IH]; intros w x I; cbn [M_Process.write_threads]; [exists w; exact I| |exists w; exact I].
    destruct (write_all_inv key ltb HO mb out d0 l w x I) as (x1 & E & I1). rewrite E. exact (IH _ _ I1).
  Qed.
  Lemma results_cases ck pts : Forall (ok_or_err transform) ck -> Forall (fun o => (exists l, o = Ok l) \/ (exists c, o = Err c)) (thread_results transform threads ck pts).
  Proof.
    intros Hf. apply Forall_forall. intros o Ho. unfold thread_results in Ho. apply in_map_iff in Ho. destruct Ho as (j & <- & _).
    destruct (mapM_ok_or_err transform (slice ck (thread_range pts (length ck) j))) as [(os & ->)|(c & r & -> & _)]; eauto.
    apply Forall_forall. intros r Hr. apply slice_incl in Hr. rewrite Forall_forall in Hf. auto.
  Qed.
  (** A file that cannot be read to its end makes the loop fail. *)
  Lemma loop_damaged out d0 fuel : (1 <= threads)%nat -> (1 <= chunk)%nat -> forall f ins e w x, read_records f = (ins, e) -> e <> Ok tt ->
    Forall (ok_or_err transform) ins -> (length ins < fuel)%nat -> inv key ltb out d0 w (fst x) (snd x) ->
    exists x1 w1, inv key ltb out d0 w1 (fst x1) (snd x1) /\ (process_loop fuel out f x = (x1, e) \/ (exists c r, In r ins /\ transform r = Err c /\ process_loop fuel out f x = (x1, Err c))).
  Proof.
    intros Ht Hc. induction fuel as [|k IH]; intros f ins e w x E N S L I; [lia|]. cbn [M_Process.process_loop].
    assert (H : f_has_more f = true). { destruct (records_cases f ins _ E) as [(_ & _ & ->)|[(H & _)|(H & _)]]; [contradiction|exact H|exact H]. } rewrite H.
    destruct (chunk_any chunk f ins _ E) as [(f' & C & E')|(_ & C)]; rewrite C; [|exists x, w; split; [exact I|]; left; destruct e as [[]| | | |]; [contradiction|reflexivity..]].
    assert (Hp : exists pts, per_thread_size (length (firstn chunk ins)) threads = Ok pts). { unfold per_thread_size. destruct threads; [lia|eauto]. }
    destruct Hp as (pts & Hp). rewrite Hp.
    assert (Hin : forall y, In y (firstn chunk ins) \/ In y (skipn chunk ins) -> In y ins). { intros y Hy. rewrite <- (firstn_skipn chunk ins). apply in_or_app. exact Hy. }
    assert (Hf1 : Forall (ok_or_err transform) (firstn chunk ins)). { apply Forall_forall. intros y Hy. rewrite Forall_forall in S. auto. }
    assert (I0 : inv key ltb out d0 w (fst (sw_set_prefix (fst x) out, snd x)) (snd (sw_set_prefix (fst x) out, snd x))). { cbn [fst snd]. apply inv_prefix. exact I. }
    destruct (one_chunk key ltb HO mb transform threads out d0 w (sw_set_prefix (fst x) out, snd x) (firstn chunk ins) pts Ht Hf1 Hp I0) as (x1 & [(os & M & Ew & I1)|(c & y & Hy & Ey & Ew)]); rewrite Ew.
    2: { destruct (threads_frame out d0 _ (results_cases (firstn chunk ins) pts Hf1) w _ I0) as (w1 & I1). rewrite Ew in I1. exists x1, w1. split; [exact I1|]. right. exists c, y. auto. }
    destruct ins as [|r ins'].
    - (* nothing left: the next chunk fails *)
      destruct (records_cases f [] _ E) as [(_ & _ & ->)|[(_ & ? & ? & ? & _ & X & _)|(_ & _ & _ & B)]]; [contradiction|discriminate|]. destruct chunk as [|cs]; [lia|]. cbn [read_chunk] in C. rewrite H, B in C. destruct e as [[]| | | |]; discriminate.
    - destruct (IH f' (skipn chunk (r :: ins')) e (w ++ os) x1 E' N) as (x2 & w2 & I2 & [X|(c & y & Hy & Ey & X)]).
      + apply Forall_forall. intros y Hy. rewrite Forall_forall in S. auto.
      + rewrite skipn_length. cbn [length] in *. lia.
      + exact I1.
      + exists x2, w2. split; [exact I2|]. left. exact X.
      + exists x2, w2. split; [exact I2|]. right. exists c, y. auto.
  Qed.
  Lemma process_damaged ties fuel d input output f ins e : (1 <= chunk)%nat -> (1 <= threads)%nat -> (length ins < fuel)%nat -> d input = Some f -> read_records f = (ins, e) -> e <> Ok tt ->
    Forall (ok_or_err transform) ins ->
    (snd (process ties fuel d input output) = e \/ exists c r, In r ins /\ transform r = Err c /\ snd (process ties fuel d input output) = Err c) /\
    forall n, (forall i, n <> output ++ dec (Z.of_nat i)) -> fst (process ties fuel d input output) n = d n.
  Proof.
    intros Hc Ht Hl Hd E N S. unfold process_record_file. rewrite Hd.
    assert (I0 : inv key ltb output d [] (sw_set_prefix sw_init output) d). { constructor; cbn; auto. exists []. cbn. repeat split; auto. }
    destruct (loop_damaged output d fuel Ht Hc f ins e [] (sw_set_prefix sw_init output, d) E N S Hl I0) as ([s1 d1] & w1 & I1 & X).
    assert (F : forall n, (forall i, n <> output ++ dec (Z.of_nat i)) -> d1 n = d n).
    { intros n Hn. apply (i_other _ _ _ _ _ _ _ I1). destruct (i_shards _ _ _ _ _ _ _ I1) as (ls & -> & _). intros Hi. unfold names in Hi. apply in_map_iff in Hi. destruct Hi as (i & Ei & _). apply (Hn i). symmetry. exact Ei. }
    destruct X as [X|(c & r & Hr & Er & X)]; loop_rw X.
    - destruct e as [[]| | | |]; [contradiction|split; [left; reflexivity|exact F]..].
    - split; [|exact F]. right. exists c, r. auto.
  Qed.
  Lemma process_err_any ties fuel d input output f ins :
    (1 <= chunk)%nat -> (1 <= threads)%nat -> (length ins < fuel)%nat ->
    d input = Some f -> read_records f = (ins, Ok tt) -> Forall short ins -> Forall (ok_or_err transform) ins ->
    (exists r c, In r ins /\ transform r = Err c) ->
    exists d' c r, process ties fuel d input output = (d', Err c) /\ In r ins /\ transform r = Err c.
  Proof.
    intros Hc Ht Hfuel Hd R Hs Hoe (r0 & c0 & Hr0 & Er0). unfold process_record_file. rewrite Hd.
    assert (I0 : inv key ltb output d [] (sw_set_prefix sw_init output) d). { constructor; cbn; auto. exists []. cbn. repeat split; auto. }
    destruct (loop_inv key ltb HO mb transform chunk threads output d fuel Ht Hc ins []
      (sw_set_prefix sw_init output, d) Hs Hoe Hfuel I0) as ([s1 d1] & [(os & M & E & I1)|(c & r & Hr & Er & E)]); rewrite <- (loop_clean output fuel f ins _ R Hs) in E.
    - exfalso. clear - M Hr0 Er0. induction M as [|y o l l' Hy Hm IH]; [contradiction|]. destruct Hr0 as [->|Hr]; [congruence|auto].
    - loop_rw E. exists d1, c, r. auto.
  Qed.
End Any.
