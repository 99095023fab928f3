(** Lemmas about the dummy data tool. *)
From Coq Require Import Permutation.
From Verif Require Import Base M_RecordIO M_Shard M_Csv S_Csv L_Csv P_Csv M_Dummy S_Dummy S_Protocol.

Lemma random_storable id : random_id id -> storable id.
Proof. intros [_ F]. rewrite Forall_forall in F. split; intros H; specialize (F _ H); unfold letter_or_digit in F; change (bz x00) with 0 in F; change (bz x0a) with 10 in F; lia. Qed.

(** Success of the generator says what was requested and what came out. *)
Lemma generated rnd ss cs i m server client vals sum : m <= 2 ^ 63 - 1 ->
  generate_random_databases rnd ss cs i m = Ok (server, (client, vals), sum) ->
  0 <= i <= ss /\ i <= cs /\ 0 <= m /\ as_requested ss cs i m server client vals /\ sum = sum_common server (combine client vals) /\ sum <= 2 ^ 63 - 1.
Proof.
  intros Hm E.
  assert (H : 0 <= i /\ i <= ss /\ i <= cs /\ 0 <= m /\ i * m <= 2 ^ 63 - 1).
  { destruct (Z_le_dec 0 i), (Z_le_dec i ss), (Z_le_dec i cs), (Z_le_dec 0 m), (Z_le_dec (i * m) (2 ^ 63 - 1)); try tauto;
      rewrite (C15_illegal_sizes_rejected rnd ss cs i m) in E by tauto; discriminate. }
  destruct H as (H1 & H2 & H3 & H4 & H5). destruct (Z.eq_dec m 0) as [->|Nm].
  - destruct (Z_lt_dec 0 cs) as [Hc|Hc]; [rewrite C15_zero_bound_refuted in E by assumption; discriminate|].
    assert (cs = 0) by lia. assert (i = 0) by lia. subst cs i.
    assert (E1 : generate_random_databases rnd ss 0 0 1 = Ok (server, (client, vals), sum)).
    { rewrite <- E. unfold generate_random_databases. destruct (ss <? 0) eqn:Q; [reflexivity|]. cbn [Z.ltb Z.compare orb andb].
      destruct (ss <? 0); reflexivity. }
    destruct (C15_databases_consistent_partial rnd ss 0 0 1) as (s & c & v & A1 & A2 & A3 & A4 & A5 & A6 & A7); try lia.
    rewrite A7 in E1. destruct (_ <=? _) eqn:Q; [|discriminate]. injection E1 as -> -> -> <-. apply Z.leb_le in Q.
    repeat split; try assumption; try lia. destruct vals; [constructor|cbn in A3; lia].
  - destruct (C15_databases_consistent_partial rnd ss cs i m) as (s & c & v & A1 & A2 & A3 & A4 & A5 & A6 & A7); try lia.
    rewrite A7 in E. destruct (_ <=? _) eqn:Q; [|discriminate]. injection E as -> -> -> <-. apply Z.leb_le in Q.
    repeat split; try assumption; lia.
Qed.

Lemma can_open_good name w : can_open name w = true -> writes_well w = true -> name <> [] /\ w = WGood.
Proof. destruct name, w; cbn; intros; try discriminate; split; congruence. Qed.
Lemma good_can_open name : name <> [] -> can_open name WGood = true.
Proof. destruct name; [congruence|reflexivity]. Qed.

Lemma fs_set_same d n c : fs_set d n c n = Some c.
Proof. unfold fs_set. rewrite bytes_eqb_refl. reflexivity. Qed.
Lemma fs_set_other d n c m : m <> n -> fs_set d n c m = d m.
Proof. intros N. unfold fs_set. destruct (bytes_eqb m n) eqn:E; [apply bytes_eqb_eq in E; congruence|reflexivity]. Qed.
Lemma after_write_other d n w r m : m <> n -> after_write d n w r m = d m.
Proof. intros N. unfold after_write. destruct r as [c|[]| | |]; try reflexivity; [apply fs_set_other, N|]. destruct w; try reflexivity. apply fs_set_other, N. Qed.

(** No more different identifiers than identifiers; equality only without repetition. *)
Lemma distinct_perm a b : Permutation a b -> distinct a = distinct b.
Proof.
  intros P. unfold distinct. apply Permutation_length. apply NoDup_Permutation; try apply NoDup_nodup.
  intros x. rewrite !nodup_In. split; apply Permutation_in; [exact P|symmetry; exact P].
Qed.
Lemma distinct_le l : (distinct l <= length l)%nat.
Proof. unfold distinct. induction l as [|x l IH]; [reflexivity|]. cbn [nodup length]. destruct (in_dec _ _ _); cbn [length]; lia. Qed.
Lemma distinct_full l : distinct l = length l -> NoDup l.
Proof.
  induction l as [|x l IH]; intros H; [constructor|]. unfold distinct in H. cbn [nodup length] in H. destruct (in_dec bytes_eq_dec x l) as [Hi|Hn].
  - pose proof (distinct_le l) as D. unfold distinct in D. lia.
  - constructor; [exact Hn|]. apply IH. unfold distinct. cbn [length] in H. lia.
Qed.
Lemma distinct_dup a b c : distinct ((a ++ b) ++ a ++ c) = distinct (a ++ b ++ c).
Proof.
  unfold distinct. apply Permutation_length. apply NoDup_Permutation; try apply NoDup_nodup.
  intros x. rewrite !nodup_In, !in_app_iff. tauto.
Qed.

Lemma common_sum server rows : sum_common server rows = zsum (map snd (common rows server)).
Proof.
  unfold sum_common, common. induction rows as [|r rows IH]; [reflexivity|]. cbn [filter].
  destruct (in_dec bytes_eq_dec (fst r) server), (in_dec bytes_dec (fst r) server); try contradiction; [|exact IH].
  cbn [map fold_right zsum]. rewrite IH. reflexivity.
Qed.

(** How many rows a client has in common with the server depends on the identifiers only. *)
Lemma common_length rows server : length (common rows server) = length (filter (fun x => if in_dec bytes_dec x server then true else false) (map fst rows)).
Proof. unfold common. induction rows as [|r rows IH]; [reflexivity|]. cbn [filter map]. destruct (in_dec _ _ _); cbn [length]; rewrite IH; reflexivity. Qed.

Lemma filter_perm_length {A} (f : A -> bool) a b : Permutation a b -> length (filter f a) = length (filter f b).
Proof. induction 1 as [|x a b P IH|x y a|a b c P1 IH1 P2 IH2]; cbn [filter]; [reflexivity| | |congruence]; repeat destruct (f _); cbn [length]; lia. Qed.

Lemma no_collision n server client rows : map fst rows = client -> share_at_least n server client ->
  (distinct (server ++ client) + n = length server + length client)%nat ->
  NoDup server /\ NoDup client /\ length (common rows server) = n.
Proof.
  intros Er (com & ra & rb & Hn & Pa & Pb) Hd.
  rewrite (distinct_perm _ _ (Permutation_app Pa Pb)), distinct_dup in Hd.
  rewrite (Permutation_length Pa), (Permutation_length Pb), !app_length in Hd.
  assert (ND : NoDup (com ++ ra ++ rb)) by (apply distinct_full; pose proof (distinct_le (com ++ ra ++ rb)); rewrite !app_length in *; lia).
  assert (NDs : NoDup (com ++ ra)) by (rewrite app_assoc in ND; clear -ND; remember (com ++ ra) as l eqn:E; clear E; induction l as [|x l IH]; [constructor|]; inversion ND; subst; constructor; [intros H; apply H1, in_or_app; left; exact H|apply IH; assumption]).
  assert (ND2 : NoDup (ra ++ com ++ rb)). { eapply Permutation_NoDup; [|exact ND]. rewrite !app_assoc. apply Permutation_app_tail, Permutation_app_comm. }
  assert (NDc : NoDup (com ++ rb)) by (clear -ND2; induction ra as [|x l IH]; [exact ND2|]; inversion ND2; subst; apply IH; assumption).
  split; [eapply Permutation_NoDup; [symmetry; exact Pa|exact NDs]|]. split; [eapply Permutation_NoDup; [symmetry; exact Pb|exact NDc]|].
  rewrite common_length, Er, (filter_perm_length _ _ _ Pb), filter_app, app_length.
  set (f := fun x => if in_dec bytes_dec x server then true else false).
  assert (F1 : filter f com = com).
  { clear -Pa. assert (G : forall x, In x com -> f x = true). { intros x Hx. unfold f. destruct (in_dec bytes_dec x server) as [_|N]; [reflexivity|]. exfalso. apply N. eapply Permutation_in; [symmetry; exact Pa|]. apply in_or_app. left. exact Hx. }
    induction com as [|x l IH]; [reflexivity|]. cbn [filter]. rewrite (G x (or_introl eq_refl)). f_equal.
    clear IH Pa. induction l as [|y l IH]; [reflexivity|]. cbn [filter]. rewrite (G y) by (right; left; reflexivity). f_equal. apply IH. intros z [->|Hz]; apply G; [left; reflexivity|right; right; exact Hz]. }
  assert (F2 : filter f rb = []).
  { assert (G : forall x, In x rb -> f x = false).
    { intros x Hx. unfold f. destruct (in_dec bytes_dec x server) as [Hi|_]; [|reflexivity]. exfalso.
      apply (Permutation_in _ Pa) in Hi. rewrite app_assoc in ND. clear -ND Hi Hx. remember (com ++ ra) as l eqn:E. clear E.
      induction l as [|y l IH]; [contradiction|]. cbn [app] in ND. inversion ND as [|? ? N ND']; subst. destruct Hi as [->|Hi]; [apply N, in_or_app; right; exact Hx|exact (IH ND' Hi)]. }
    clear -G. induction rb as [|x l IH]; [reflexivity|]. cbn [filter]. rewrite (G x (or_introl eq_refl)). apply IH. intros y Hy. apply G. right. exact Hy. }
  rewrite F1, F2. cbn [length]. lia.
Qed.
