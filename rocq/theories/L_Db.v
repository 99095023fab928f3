(** Lemmas about random databases. *)
From Coq Require Import Permutation.
From Verif Require Import Base M_Dec M_RecordIO M_BigNum L_BigNum M_Num M_Csv S_Csv.

Lemma list_swap_perm {A} (l : list A) i j d : (i < length l)%nat -> (j < length l)%nat -> Permutation l (list_swap l i j d).
Proof.
  intros Hi Hj. apply (Permutation_nth l (list_swap l i j d) d). cbn zeta. unfold list_swap.
  rewrite map_length, seq_length. split; [reflexivity|].
  exists (fun k => if (k =? i)%nat then j else if (k =? j)%nat then i else k). split; [|split].
  - intros k Hk. destruct (Nat.eqb_spec k i), (Nat.eqb_spec k j); lia.
  - intros a b Ha Hb.
    destruct (Nat.eqb_spec a i), (Nat.eqb_spec a j), (Nat.eqb_spec b i), (Nat.eqb_spec b j); lia.
  - intros k Hk. rewrite (nth_indep _ d (nth (if (0 =? i)%nat then j else if (0 =? j)%nat then i else 0%nat) l d))
      by (rewrite map_length, seq_length; exact Hk).
    rewrite (map_nth (fun k => nth (if (k =? i)%nat then j else if (k =? j)%nat then i else k) l d)).
    rewrite seq_nth by exact Hk. reflexivity.
Qed.

Lemma shuffle_perm {A} (c : nat -> nat) (l : list A) d : Permutation l (shuffle c l d).
Proof.
  unfold shuffle.
  assert (H : forall js m, Permutation l m -> (forall i, In i js -> (i < length l)%nat) ->
    Permutation l (fold_left (fun l i => list_swap l i (c i mod S i)%nat d) js m)).
  { induction js as [|i js IH]; intros m Hp Hj; cbn [fold_left]; [exact Hp|].
    apply IH; [|intros; apply Hj; right; assumption].
    eapply Permutation_trans; [exact Hp|].
    assert (Hi : (i < length m)%nat) by (rewrite <- (Permutation_length Hp); apply Hj; left; reflexivity).
    apply list_swap_perm; [exact Hi|]. pose proof (Nat.mod_upper_bound (c i) (S i) ltac:(lia)). lia. }
  apply H; [apply Permutation_refl|]. intros i Hi. apply in_seq in Hi. lia.
Qed.

Lemma random_ids_length n r from : length (random_ids n r from) = n.
Proof. unfold random_ids. rewrite map_length, seq_length. reflexivity. Qed.

Lemma random_alnum_spec len r from : length (random_alnum len r from) = len /\ Forall (fun b => In b alphanumeric) (random_alnum len r from).
Proof.
  unfold random_alnum. rewrite map_length, seq_length. split; [reflexivity|].
  apply Forall_map, Forall_forall. intros i _. apply nth_In.
  change (length alphanumeric) with 62%nat. apply Nat.mod_upper_bound. lia.
Qed.

Lemma random_ids_alnum n r from : Forall (fun id => length id = id_len /\ Forall (fun b => In b alphanumeric) id) (random_ids n r from).
Proof. unfold random_ids. apply Forall_map, Forall_forall. intros i _. apply random_alnum_spec. Qed.

Lemma mem_bytes_In x l : mem_bytes x l = if in_dec bytes_eq_dec x l then true else false.
Proof.
  unfold mem_bytes. destruct (in_dec bytes_eq_dec x l) as [H|H].
  - apply existsb_exists. exists x. split; [exact H|apply bytes_eqb_refl].
  - destruct (existsb (bytes_eqb x) l) eqn:E; [|reflexivity]. apply existsb_exists in E. destruct E as (y & Hy & E).
    apply bytes_eqb_eq in E. subst. contradiction.
Qed.

Lemma to_int_value_small v : 0 <= v < 2 ^ 63 -> to_int_value v = Ok v.
Proof.
  intros H. unfold to_int_value. destruct (Z.leb_spec (bit_length v) 64) as [_|Hc]; [f_equal; lia|].
  exfalso. pose proof (bit_length_pow v) as Hp. rewrite Z.abs_eq in Hp by lia.
  assert (Hq : v < 2 ^ 64) by (change (2 ^ 64) with (2 * 2 ^ 63); lia).
  unfold bit_length in Hc. destruct (Z.eqb_spec v 0) as [->|Hv]; [cbn in Hc; lia|].
  destruct (Z.eq_dec v 0); [lia|]. rewrite Z.abs_eq in Hc by lia.
  assert (Z.log2 v < 64) by (apply Z.log2_lt_pow2; lia). lia.
Qed.

Lemma sum_common_cons server id v rows :
  sum_common server ((id, v) :: rows) = (if mem_bytes id server then v else 0) + sum_common server rows.
Proof.
  rewrite mem_bytes_In. unfold sum_common. cbn [filter fst]. destruct (in_dec bytes_eq_dec id server); cbn [map fold_right snd]; lia.
Qed.

Lemma sum_common_nonneg server rows : Forall (fun r => 0 <= snd r) rows -> 0 <= sum_common server rows.
Proof.
  induction 1 as [|[id v] rows Hv _ IH]; [cbn; lia|]. rewrite sum_common_cons. cbn in Hv. destruct (mem_bytes id server); lia.
Qed.

(** The values drawn, as a plain list. *)
Definition drawn (bound : Z) (raws : nat -> Z) (i n : nat) : list Z := map (fun k => raws k mod bound) (seq i n).

Lemma draw_values_spec server bound raws client : 0 < bound <= int64_max -> forall i sum, 0 <= sum <= int64_max ->
  let vals := drawn bound raws i (length client) in
  draw_values server bound raws i client sum =
  (if sum + sum_common server (combine client vals) <=? int64_max
   then Ok (vals, sum + sum_common server (combine client vals)) else UB).
Proof.
  intros Hb. induction client as [|id client IH]; intros i sum Hs; cbn zeta.
  - cbn [draw_values length drawn seq map combine]. unfold sum_common. cbn [filter map fold_right].
    rewrite Z.add_0_r. destruct (Z.leb_spec sum int64_max); [reflexivity|lia].
  - cbn [draw_values length]. unfold drawn. cbn [seq map combine]. fold (drawn bound raws (S i) (length client)).
    rewrite sum_common_cons. unfold generate_rand_less_than. destruct (Z.leb_spec bound 0); [lia|]. cbn [bind].
    pose proof (Z.mod_pos_bound (raws i) bound ltac:(lia)) as Hv. set (v := raws i mod bound) in *.
    rewrite to_int_value_small by (unfold int64_max in *; lia). cbn [value_or_crash bind].
    assert (Hn : 0 <= sum_common server (combine client (drawn bound raws (S i) (length client)))).
    { apply sum_common_nonneg. apply Forall_forall. intros [x w] Hin. apply in_combine_r in Hin. cbn.
      unfold drawn in Hin. apply in_map_iff in Hin. destruct Hin as (k & <- & _). apply Z.mod_pos_bound. lia. }
    cbn zeta in IH. destruct (mem_bytes id server).
    + destruct (Z.ltb_spec int64_max (sum + v)) as [Ho|Ho]; cbn [bind].
      * destruct (Z.leb_spec (sum + (v + sum_common server (combine client (drawn bound raws (S i) (length client))))) int64_max); [lia|reflexivity].
      * rewrite IH by lia. rewrite Z.add_assoc.
        destruct (Z.leb_spec (sum + v + sum_common server (combine client (drawn bound raws (S i) (length client)))) int64_max); reflexivity.
    + cbn [bind]. rewrite Z.add_0_l. rewrite IH by lia.
      destruct (Z.leb_spec (sum + sum_common server (combine client (drawn bound raws (S i) (length client)))) int64_max); reflexivity.
Qed.

Definition legal_sizes (server_size client_size inter max_value : Z) : Prop :=
  0 <= inter /\ inter <= server_size /\ inter <= client_size /\ 0 <= max_value /\ inter * max_value <= int64_max.

Lemma legal_checks ss cs inter mv : 
  ((inter <? 0) || (ss <? 0) || (cs <? 0) || (mv <? 0) || ((ss <? inter) || (cs <? inter)) ||
   ((0 <? mv) && (Z.quot int64_max mv <? inter))) = false <-> legal_sizes ss cs inter mv.
Proof.
  unfold legal_sizes. rewrite !orb_false_iff, andb_false_iff, !Z.ltb_ge.
  assert (Hm : 0 < int64_max) by reflexivity.
  split.
  - intros (((((G1 & G2) & G3) & G4) & (G5 & G6)) & H). repeat split; try lia.
    destruct H as [H|H]; [nia|]. destruct (Z.eq_dec mv 0) as [->|]; [lia|].
    rewrite Z.quot_div_nonneg in H by lia. pose proof (Z.mul_div_le int64_max mv ltac:(lia)). nia.
  - intros (G1 & G2 & G3 & G4 & G5). repeat split; try lia. destruct (Z.eq_dec mv 0) as [->|]; [left; lia|]. right.
    rewrite Z.quot_div_nonneg by lia. apply Z.div_le_lower_bound; lia.
Qed.

Lemma generate_unfold rnd ss cs inter mv :
  legal_sizes ss cs inter mv ->
  let ni := Z.to_nat inter in
  let ns := (Z.to_nat ss - ni)%nat in
  let nc := (Z.to_nat cs - ni)%nat in
  let common := random_ids ni (r_rand rnd) 0 in
  let server := shuffle (r_shuffle_server rnd) (common ++ random_ids ns (r_rand rnd) (ni * id_len)) [] in
  let client := shuffle (r_shuffle_client rnd) (common ++ random_ids nc (r_rand rnd) ((ni + ns) * id_len)) [] in
  generate_random_databases rnd ss cs inter mv =
    (let* vs := draw_values server mv (r_values rnd) 0 client 0 in Ok (server, (client, fst vs), snd vs)).
Proof.
  intros H. cbn zeta. apply legal_checks in H. rewrite !orb_false_iff in H.
  unfold generate_random_databases.
  destruct H as ((((( -> & ->) & ->) & ->) & (-> & ->)) & ->). reflexivity.
Qed.

Lemma generate_illegal rnd ss cs inter mv : ~ legal_sizes ss cs inter mv ->
  generate_random_databases rnd ss cs inter mv = Err InvalidArgument.
Proof.
  intros H. unfold generate_random_databases.
  destruct ((inter <? 0) || (ss <? 0) || (cs <? 0) || (mv <? 0)) eqn:E1; [reflexivity|].
  destruct ((ss <? inter) || (cs <? inter)) eqn:E2; [reflexivity|].
  destruct ((0 <? mv) && (Z.quot int64_max mv <? inter)) eqn:E3; [reflexivity|].
  exfalso. apply H, legal_checks. rewrite E1, E2, E3. reflexivity.
Qed.

Lemma generate_spec rnd ss cs inter mv : legal_sizes ss cs inter mv -> 0 < mv <= int64_max ->
  exists server client vals,
    length server = Z.to_nat ss /\ length client = Z.to_nat cs /\ length vals = Z.to_nat cs /\
    share_at_least (Z.to_nat inter) server client /\
    Forall (fun v => 0 <= v < mv) vals /\
    Forall (fun id => length id = id_len /\ Forall (fun b => In b alphanumeric) id) (server ++ client) /\
    generate_random_databases rnd ss cs inter mv =
      (if sum_common server (combine client vals) <=? int64_max
       then Ok (server, (client, vals), sum_common server (combine client vals)) else UB).
Proof.
  intros H Hm. rewrite (generate_unfold rnd ss cs inter mv H). cbn zeta.
  set (common := random_ids (Z.to_nat inter) (r_rand rnd) 0).
  set (rs := random_ids (Z.to_nat ss - Z.to_nat inter) _ _). set (rc := random_ids (Z.to_nat cs - Z.to_nat inter) _ _).
  set (server := shuffle _ (common ++ rs) []). set (client := shuffle _ (common ++ rc) []).
  destruct H as (H1 & H2 & H3 & _ & _).
  assert (Hps : Permutation (common ++ rs) server) by apply shuffle_perm.
  assert (Hpc : Permutation (common ++ rc) client) by apply shuffle_perm.
  assert (Hls : length server = Z.to_nat ss).
  { rewrite <- (Permutation_length Hps), app_length. unfold common, rs. rewrite !random_ids_length. lia. }
  assert (Hlc : length client = Z.to_nat cs).
  { rewrite <- (Permutation_length Hpc), app_length. unfold common, rc. rewrite !random_ids_length. lia. }
  exists server, client, (drawn mv (r_values rnd) 0 (length client)).
  split; [exact Hls|]. split; [exact Hlc|]. split; [unfold drawn; rewrite map_length, seq_length; exact Hlc|].
  split; [|split; [|split]].
  - exists common, rs, rc. split; [apply random_ids_length|]. split; apply Permutation_sym; assumption.
  - apply Forall_map, Forall_forall. intros k _. apply Z.mod_pos_bound. lia.
  - apply Forall_app. split; eapply Permutation_Forall; try eassumption; apply Forall_app; split; apply random_ids_alnum.
  - rewrite draw_values_spec by (unfold int64_max in *; lia). rewrite Z.add_0_l.
    destruct (Z.leb_spec (sum_common server (combine client (drawn mv (r_values rnd) 0 (length client)))) int64_max); reflexivity.
Qed.

Lemma generate_crash rnd ss cs inter : legal_sizes ss cs inter 0 -> 0 < cs ->
  generate_random_databases rnd ss cs inter 0 = Crash.
Proof.
  intros H Hc. rewrite (generate_unfold rnd ss cs inter 0 H). cbn zeta.
  match goal with |- context [draw_values ?s 0 ?r 0 ?c 0] => set (server := s); set (client := c) end.
  assert (Hl : length client = Z.to_nat cs).
  { unfold client. rewrite <- (Permutation_length (shuffle_perm (A:=bytes) _ _ [])), app_length, !random_ids_length.
    destruct H as (G1 & G2 & G3 & _). lia. }
  destruct client; [cbn in Hl; lia|]. reflexivity.
Qed.

Lemma sum_common_bound server rows m : Forall (fun r => 0 <= snd r < m) rows -> 0 <= sum_common server rows <= Z.of_nat (length rows) * (m - 1).
Proof.
  induction 1 as [|[id v] rows Hv _ IH]; [cbn; lia|]. rewrite sum_common_cons. cbn [snd length] in *. rewrite Nat2Z.inj_succ.
  destruct (mem_bytes id server); nia.
Qed.

(** ** Every database can be drawn *)

Lemma list_swap_length {A} (l : list A) i j d : length (list_swap l i j d) = length l.
Proof. unfold list_swap. rewrite map_length, seq_length. reflexivity. Qed.

Lemma list_swap_nth {A} (l : list A) i j d k : (k < length l)%nat -> nth k (list_swap l i j d) d = nth (if (k =? i)%nat then j else if (k =? j)%nat then i else k) l d.
Proof.
  intros Hk. unfold list_swap. rewrite (nth_indep _ d (nth (if (0 =? i)%nat then j else if (0 =? j)%nat then i else 0%nat) l d)) by (rewrite map_length, seq_length; exact Hk).
  rewrite (map_nth (fun k => nth (if (k =? i)%nat then j else if (k =? j)%nat then i else k) l d)), seq_nth by exact Hk. reflexivity.
Qed.

Lemma list_swap_twice {A} (l : list A) i j d : (i < length l)%nat -> (j < length l)%nat -> list_swap (list_swap l i j d) i j d = l.
Proof.
  intros Hi Hj. apply (nth_ext _ _ d d); [rewrite !list_swap_length; reflexivity|]. intros k Hk. rewrite !list_swap_length in Hk.
  rewrite list_swap_nth by (rewrite list_swap_length; exact Hk). rewrite list_swap_nth; [|destruct (Nat.eqb_spec k i), (Nat.eqb_spec k j); lia].
  f_equal. destruct (Nat.eqb_spec k i), (Nat.eqb_spec k j); repeat match goal with |- context [Nat.eqb ?a ?b] => destruct (Nat.eqb_spec a b) end; lia.
Qed.

Lemma list_swap_prefix {A} (l : list A) x i j d : (i < length l)%nat -> (j < length l)%nat -> list_swap (l ++ [x]) i j d = list_swap l i j d ++ [x].
Proof.
  intros Hi Hj. apply (nth_ext _ _ d d); [rewrite list_swap_length, !app_length, list_swap_length; reflexivity|]. intros k Hk. rewrite list_swap_length in Hk.
  rewrite list_swap_nth by exact Hk. rewrite app_length in Hk. cbn [length] in Hk. destruct (Nat.eq_dec k (length l)) as [->|Hn].
  - destruct (Nat.eqb_spec (length l) i), (Nat.eqb_spec (length l) j); try lia. rewrite !app_nth2, list_swap_length by (rewrite ?list_swap_length; lia). rewrite Nat.sub_diag. reflexivity.
  - rewrite (app_nth1 (list_swap l i j d)), list_swap_nth by (rewrite ?list_swap_length; lia). apply app_nth1. destruct (Nat.eqb_spec k i), (Nat.eqb_spec k j); lia.
Qed.

Lemma shuffle_prefix {A} (c : nat -> nat) (x d : A) js : forall l, (forall i, In i js -> (i < length l)%nat) ->
  fold_left (fun l i => list_swap l i (c i mod S i)%nat d) js (l ++ [x]) = fold_left (fun l i => list_swap l i (c i mod S i)%nat d) js l ++ [x].
Proof.
  induction js as [|i js IH]; intros l H; cbn [fold_left]; [reflexivity|]. pose proof (H i (or_introl eq_refl)) as Hi. pose proof (Nat.mod_upper_bound (c i) (S i) ltac:(lia)).
  rewrite list_swap_prefix by lia. apply IH. intros k Hk. rewrite list_swap_length. apply H. right. exact Hk.
Qed.

Lemma shuffle_ext {A} (c c' : nat -> nat) (d : A) js : (forall i, In i js -> c i = c' i) -> forall l,
  fold_left (fun l i => list_swap l i (c i mod S i)%nat d) js l = fold_left (fun l i => list_swap l i (c' i mod S i)%nat d) js l.
Proof. induction js as [|i js IH]; intros H l; cbn [fold_left]; [reflexivity|]. rewrite (H i (or_introl eq_refl)). apply IH. intros k Hk. apply H. right. exact Hk. Qed.

(** A shuffle can end in any order. *)
Lemma shuffle_reaches {A} (l : list A) d : forall m, Permutation l m -> exists c, shuffle c l d = m.
Proof.
  induction l as [|x l IH] using rev_ind; intros m P.
  - apply Permutation_nil in P. subst. exists (fun _ => O). reflexivity.
  - pose proof (Permutation_length P) as Len. rewrite app_length in Len. cbn [length] in Len.
    assert (Hin : In x m) by (apply (Permutation_in _ P), in_app_iff; right; left; reflexivity).
    destruct (In_nth m x d Hin) as (j & Hj & Ej). set (n := length l) in *.
    set (m' := list_swap m n j d). assert (Lm : length m' = S n) by (unfold m'; rewrite list_swap_length; lia).
    assert (El : m' = firstn n m' ++ [x]).
    { rewrite <- (firstn_skipn n m') at 1. f_equal. assert (Ls : length (skipn n m') = 1%nat) by (rewrite skipn_length; lia).
      destruct (skipn n m') as [|y [|? ?]] eqn:Es; try discriminate Ls. f_equal. assert (Hy : nth n m' d = y).
      { rewrite <- (firstn_skipn n m'), app_nth2, Es by (rewrite firstn_length; lia). rewrite firstn_length, Nat.min_l, Nat.sub_diag by lia. reflexivity. }
      rewrite <- Hy. unfold m'. rewrite list_swap_nth by lia. rewrite Nat.eqb_refl. exact Ej. }
    assert (P' : Permutation l (firstn n m')).
    { apply (Permutation_app_inv_r [x]). rewrite <- El. eapply Permutation_trans; [exact P|]. apply list_swap_perm; lia. }
    destruct (IH _ P') as (c & Ec). exists (fun i => if (i =? n)%nat then j else c i). unfold shuffle in Ec |- *. rewrite app_length. cbn [length]. fold n in Ec |- *.
    replace (pred (n + 1)) with n by lia. destruct n as [|k] eqn:En.
    + assert (l = []) by (destruct l; [reflexivity|discriminate En]). subst l. cbn [seq fold_left app]. assert (j = 0)%nat by lia. subst j. destruct m as [|y [|? ?]]; try discriminate Len. cbn in Ej. congruence.
    + rewrite seq_S, fold_left_app. cbn [fold_left]. replace (1 + k)%nat with (S k) by lia. rewrite Nat.eqb_refl, Nat.mod_small by lia.
      rewrite shuffle_prefix by (intros i Hi; apply in_seq in Hi; lia). cbn [pred] in Ec.
      rewrite (shuffle_ext _ c) by (intros i Hi; apply in_seq in Hi; destruct (Nat.eqb_spec i (S k)); [lia|reflexivity]). rewrite Ec, <- El. apply list_swap_twice; lia.
Qed.

Lemma alnum_letters b : In b alphanumeric <-> letter_or_digit b.
Proof.
  unfold letter_or_digit. split.
  - intros H. unfold alphanumeric in H. cbn [In] in H. repeat (destruct H as [<-|H]; [cbv; intuition discriminate|]). destruct H.
  - intros H. assert (D : forallb (fun b => implb ((48 <=? bz b) && (bz b <=? 57) || (65 <=? bz b) && (bz b <=? 90) || (97 <=? bz b) && (bz b <=? 122)) (existsb (byte_eqb b) alphanumeric))
      (map (fun i => zb (Z.of_nat i)) (seq 0 256)) = true) by (vm_compute; reflexivity).
    rewrite forallb_forall in D. specialize (D b). assert (Hb : In b (map (fun i => zb (Z.of_nat i)) (seq 0 256))).
    { apply in_map_iff. exists (Z.to_nat (bz b)). pose proof (bz_range b). rewrite Z2Nat.id, zb_bz by lia. split; [reflexivity|]. apply in_seq. lia. }
    specialize (D Hb). assert (Hc : (48 <=? bz b) && (bz b <=? 57) || (65 <=? bz b) && (bz b <=? 90) || (97 <=? bz b) && (bz b <=? 122) = true).
    { rewrite !orb_true_iff, !andb_true_iff, !Z.leb_le. lia. }
    rewrite Hc in D. cbn [implb] in D. apply existsb_exists in D. destruct D as (x & Hx & E). apply byte_eqb_eq in E. subst. exact Hx.
Qed.

Lemma alnum_index b : letter_or_digit b -> exists k, nth (k mod 62)%nat alphanumeric x00 = b.
Proof.
  intros H. apply alnum_letters in H. destruct (In_nth _ _ x00 H) as (k & Hk & E). change (length alphanumeric) with 62%nat in Hk. exists k. rewrite Nat.mod_small by exact Hk. exact E.
Qed.

(** A stream of rand() results that writes a given text. *)
Lemma alnum_stream s : Forall letter_or_digit s -> exists r, forall i, (i < length s)%nat -> nth (r i mod 62)%nat alphanumeric x00 = nth i s x00.
Proof.
  induction 1 as [|b s Hb _ (r & IH)]; [exists (fun _ => O); cbn; lia|]. destruct (alnum_index b Hb) as (k & Ek).
  exists (fun i => match i with O => k | S i => r i end). intros [|i] Hi; [exact Ek|]. cbn [nth]. apply IH. cbn in Hi. lia.
Qed.

Lemma random_ids_reach ids : Forall random_id ids -> forall pre r, 
  (forall i, (i < length (pre ++ concat ids))%nat -> nth (r i mod 62)%nat alphanumeric x00 = nth i (pre ++ concat ids) x00) -> random_ids (length ids) r (length pre) = ids.
Proof.
  intros H. induction H as [|id ids [Hl Hd] _ IH]; intros pre r Hr; [reflexivity|]. unfold random_ids. cbn [length seq map]. f_equal.
  - rewrite Nat.mul_0_l, Nat.add_0_r. unfold random_alnum. apply (nth_ext _ _ x00 x00); [rewrite map_length, seq_length; symmetry; exact Hl|].
    intros k Hk. rewrite map_length, seq_length in Hk. rewrite (nth_indep _ x00 (nth (r O mod 62)%nat alphanumeric x00)) by (rewrite map_length, seq_length; exact Hk).
    rewrite (map_nth (fun i => nth (r i mod 62)%nat alphanumeric x00)), seq_nth by exact Hk. cbn [concat] in Hr. unfold id_len in Hk.
    rewrite Hr by (rewrite !app_length; lia). rewrite app_nth2 by lia. rewrite app_nth1 by lia. f_equal. lia.
  - rewrite <- seq_shift, map_map. etransitivity; [|apply (IH (pre ++ id) r)].
    + unfold random_ids. rewrite app_length, Hl. apply map_ext. intros k. f_equal. unfold id_len. lia.
    + intros i Hi. cbn [concat] in Hr. rewrite <- app_assoc in Hi |- *. apply Hr, Hi.
Qed.

Lemma concat_letters ids : Forall random_id ids -> Forall letter_or_digit (concat ids) /\ length (concat ids) = (length ids * 32)%nat.
Proof. induction 1 as [|id ids [Hl Hd] _ [IH1 IH2]]; [split; [constructor|reflexivity]|]. cbn [concat length]. rewrite app_length, IH2, Hl. split; [apply Forall_app; auto|lia]. Qed.

(** Whatever two databases of the right shape and whatever values below the bound: some draw gives them. *)
Lemma generate_reaches common rs rc server client vals mv :
  Forall random_id (common ++ rs ++ rc) -> Permutation (common ++ rs) server -> Permutation (common ++ rc) client -> length vals = length client ->
  Forall (fun v => 0 <= v < mv) vals -> mv <= int64_max -> legal_sizes (Z.of_nat (length server)) (Z.of_nat (length client)) (Z.of_nat (length common)) mv ->
  0 < mv -> sum_common server (combine client vals) <= int64_max ->
  exists rnd, generate_random_databases rnd (Z.of_nat (length server)) (Z.of_nat (length client)) (Z.of_nat (length common)) mv =
    Ok (server, (client, vals), sum_common server (combine client vals)).
Proof.
  intros Hid Ps Pc Lv Hv Hm Hl Hp Hs. destruct (concat_letters _ Hid) as [Ha _]. destruct (alnum_stream _ Ha) as (r & Hr).
  destruct (shuffle_reaches (A:=bytes) (common ++ rs) [] server Ps) as (c1 & E1). destruct (shuffle_reaches (A:=bytes) (common ++ rc) [] client Pc) as (c2 & E2).
  pose proof (Permutation_length Ps) as Ls. pose proof (Permutation_length Pc) as Lc. rewrite app_length in Ls, Lc.
  exists {| r_rand := r; r_shuffle_server := c1; r_shuffle_client := c2; r_values := fun i => nth i vals 0 |}.
  rewrite generate_unfold by exact Hl. cbn zeta. cbn [r_rand r_shuffle_server r_shuffle_client r_values]. rewrite !Nat2Z.id.
  replace (length server - length common)%nat with (length rs) by lia. replace (length client - length common)%nat with (length rc) by lia.
  apply Forall_app in Hid. destruct Hid as [Hc Hid]. apply Forall_app in Hid. destruct Hid as [Hrs Hrc].
  destruct (concat_letters _ Hc) as [_ Hlc]. destruct (concat_letters _ Hrs) as [_ Hls]. rewrite !concat_app in Hr.
  change (random_ids (length common) r 0) with (random_ids (length common) r (length (@nil byte))). rewrite (random_ids_reach common Hc [] r) by (intros i Hi; rewrite Hr by (cbn [app] in Hi; rewrite !app_length; lia); cbn [app] in Hi |- *; apply app_nth1, Hi).
  replace (length common * id_len)%nat with (length (concat common)) by exact Hlc.
  rewrite (random_ids_reach rs Hrs (concat common) r) by (intros i Hi; rewrite Hr by (rewrite !app_length in *; lia); rewrite app_assoc; apply app_nth1, Hi).
  replace ((length common + length rs) * id_len)%nat with (length (concat common ++ concat rs)) by (rewrite app_length, Hlc, Hls; unfold id_len; lia).
  rewrite (random_ids_reach rc Hrc (concat common ++ concat rs) r) by (intros i Hi; rewrite <- app_assoc in Hi |- *; apply Hr, Hi).
  rewrite E1, E2. assert (Ev : drawn mv (fun i => nth i vals 0) 0 (length client) = vals).
  { unfold drawn. apply (nth_ext _ _ 0 0); [rewrite map_length, seq_length; lia|]. intros k Hk. rewrite map_length, seq_length in Hk.
    rewrite (nth_indep _ 0 (nth 0 vals 0 mod mv)) by (rewrite map_length, seq_length; exact Hk). rewrite (map_nth (fun k => nth k vals 0 mod mv)), seq_nth by exact Hk.
    apply Z.mod_small. rewrite Forall_forall in Hv. apply Hv, nth_In. lia. }
  rewrite draw_values_spec by (unfold int64_max in *; lia). rewrite Ev, Z.add_0_l. destruct (Z.leb_spec (sum_common server (combine client vals)) int64_max); [reflexivity|lia].
Qed.
