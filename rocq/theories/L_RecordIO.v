(** Lemmas about record files. *)
From Verif Require Import Base M_RecordIO S_RecordIO.
From Coq Require Import Arith.

Definition short (r : bytes) : Prop := Z.of_nat (length r) < 2 ^ 32.

Lemma pow128_S k : 128 ^ Z.of_nat (S k) = 128 * 128 ^ Z.of_nat k.
Proof. rewrite Nat2Z.inj_succ, Z.pow_succ_r by lia. reflexivity. Qed.

Lemma varint_groups_value n v : 0 <= v < 128 ^ Z.of_nat n -> (1 <= n)%nat ->
  varint_value (varint_groups n v) = v.
Proof.
  revert v; induction n as [|k IH]; intros v Hv Hn; [lia|].
  cbn [varint_groups]. rewrite pow128_S in Hv.
  destruct (Z.ltb_spec v 128) as [Hlt|Hge]; cbn [varint_value].
  - rewrite bz_zb. rewrite (Z.mod_small v 256) by lia. rewrite Z.mod_small by lia. lia.
  - destruct k as [|k]; [change (128 ^ Z.of_nat 0) with 1 in Hv; lia|].
    rewrite IH; [|split; [apply Z.div_pos; lia|apply Z.div_lt_upper_bound; lia]|lia].
    rewrite bz_zb. pose proof (Z.mod_pos_bound v 128 ltac:(lia)).
    rewrite (Z.mod_small (v mod 128 + 128) 256) by lia.
    replace (v mod 128 + 128) with (v mod 128 + 1 * 128) by lia.
    rewrite Z_mod_plus_full, Z.mod_mod by lia.
    pose proof (Z.div_mod v 128 ltac:(lia)). lia.
Qed.

Lemma varint_loop_groups n v f : 0 <= v < 128 ^ Z.of_nat n -> (1 <= n)%nat ->
  varint_loop n (varint_groups n v ++ f) = Ok (varint_groups n v, true, f).
Proof.
  revert v; induction n as [|k IH]; intros v Hv Hn; [lia|].
  cbn [varint_groups varint_loop]. rewrite pow128_S in Hv.
  destruct (Z.ltb_spec v 128) as [Hlt|Hge]; cbn [app].
  - rewrite bz_zb, Z.mod_small by lia.
    destruct (Z.ltb_spec v 128); [reflexivity|lia].
  - destruct k as [|k]; [change (128 ^ Z.of_nat 0) with 1 in Hv; lia|].
    pose proof (Z.mod_pos_bound v 128 ltac:(lia)).
    rewrite bz_zb, Z.mod_small by lia.
    destruct (Z.ltb_spec (v mod 128 + 128) 128); [lia|].
    rewrite IH; [reflexivity|split; [apply Z.div_pos; lia|apply Z.div_lt_upper_bound; lia]|lia].
Qed.

Lemma varint_groups_length n v : (length (varint_groups n v) <= n)%nat.
Proof.
  revert v; induction n as [|k IH]; intros v; cbn [varint_groups length]; [lia|].
  destruct (v <? 128); cbn [length]; [lia|]. specialize (IH (v / 128)). lia.
Qed.

Lemma varint_groups_pos n v : (1 <= n)%nat -> (1 <= length (varint_groups n v))%nat.
Proof. destruct n; [lia|]. intros _. cbn [varint_groups]. destruct (v <? 128); cbn [length]; lia. Qed.

(** A strict prefix of a varint has no terminating byte. *)
Lemma varint_loop_cut n v j : (j < length (varint_groups n v))%nat ->
  varint_loop n (firstn j (varint_groups n v)) = Ok (firstn j (varint_groups n v), false, []).
Proof.
  revert v j; induction n as [|k IH]; intros v j Hj; cbn [varint_groups] in *; [cbn in Hj; lia|].
  destruct (Z.ltb_spec v 128) as [Hlt|Hge]; cbn [length] in Hj.
  - assert (j = 0)%nat as -> by lia. reflexivity.
  - destruct j as [|j]; [reflexivity|]. cbn [firstn varint_loop].
    pose proof (Z.mod_pos_bound v 128 ltac:(lia)).
    rewrite bz_zb, Z.mod_small by lia.
    destruct (Z.ltb_spec (v mod 128 + 128) 128); [lia|].
    rewrite IH by lia. reflexivity.
Qed.

Definition prefix_len (r : bytes) : nat := length (write_varint32 (Z.of_nat (length r) mod 2 ^ 32)).

Lemma prefix_len_pos r : (1 <= prefix_len r)%nat.
Proof. apply varint_groups_pos. lia. Qed.

Lemma prefix_len_small (r : bytes) : Z.of_nat (length r) < 128 -> prefix_len r = 1%nat.
Proof.
  intros H. unfold prefix_len, write_varint32. rewrite Z.mod_small by lia.
  cbn [varint_groups]. destruct (Z.ltb_spec (Z.of_nat (length r)) 128); [reflexivity|lia].
Qed.

Lemma encode_record_length r : length (encode_record r) = (prefix_len r + length r)%nat.
Proof. unfold encode_record. rewrite app_length. reflexivity. Qed.

Lemma size_range (r : bytes) : 0 <= Z.of_nat (length r) mod 2 ^ 32 < 128 ^ Z.of_nat 5.
Proof.
  pose proof (Z.mod_pos_bound (Z.of_nat (length r)) (2 ^ 32) ltac:(lia)).
  change (128 ^ Z.of_nat 5) with 34359738368. lia.
Qed.

Lemma extract_varint_ok r f : short r ->
  extract_varint32 (write_varint32 (Z.of_nat (length r) mod 2 ^ 32) ++ f) = Ok (Z.of_nat (length r), f).
Proof.
  intros Hs. unfold extract_varint32, write_varint32.
  rewrite varint_loop_groups by (try apply size_range; lia). cbn [bind].
  unfold read_varint32. rewrite varint_groups_value by (try apply size_range; lia).
  unfold short in Hs. rewrite !Z.mod_small by (rewrite ?Z.mod_small; lia). reflexivity.
Qed.

Lemma read_record_encode r f : short r -> read_record (encode_record r ++ f) = Ok (r, f).
Proof.
  intros Hs. unfold read_record, encode_record. rewrite <- app_assoc, extract_varint_ok by exact Hs.
  cbn [bind]. rewrite Nat2Z.id. unfold f_read. rewrite app_length.
  destruct (Nat.leb_spec (length r) (length r + length f)); [|lia].
  rewrite firstn_app, firstn_all, Nat.sub_diag, firstn_O, app_nil_r.
  rewrite skipn_app, skipn_all, Nat.sub_diag. reflexivity.
Qed.

Lemma varint_loop_shrinks n f s t r : varint_loop n f = Ok (s, t, r) -> length f = (length s + length r)%nat.
Proof.
  revert f s t r; induction n as [|k IH]; intros f s t r; cbn [varint_loop]; [discriminate|].
  destruct f as [|b f]; [intros [= <- <- <-]; reflexivity|].
  destruct (bz b <? 128); [intros [= <- <- <-]; reflexivity|].
  intros H. apply bind_ok in H as ([[s' t'] r'] & H1 & H2). injection H2 as <- <- <-.
  apply IH in H1. cbn [length]. lia.
Qed.

Lemma varint_loop_term n f s r : varint_loop n f = Ok (s, true, r) -> (1 <= length s)%nat.
Proof.
  destruct n as [|k]; cbn [varint_loop]; [discriminate|].
  destruct f as [|b f]; [discriminate|].
  destruct (bz b <? 128); [intros [= <- <-]; cbn; lia|].
  intros H. apply bind_ok in H as ([[s' t'] r'] & H1 & H2). injection H2 as <- _ _. cbn; lia.
Qed.

Lemma read_record_shrinks f r f' : read_record f = Ok (r, f') -> (length f' < length f)%nat.
Proof.
  unfold read_record, extract_varint32. intros H.
  apply bind_ok in H as ([n f1] & H1 & H2). apply bind_ok in H1 as ([[s t] f2] & H1 & H3).
  destruct t; [|discriminate]. injection H3 as <- <-.
  pose proof (varint_loop_shrinks _ _ _ _ _ H1). pose proof (varint_loop_term _ _ _ _ H1).
  unfold f_read in H2. destruct (Nat.leb_spec (Z.to_nat (read_varint32 s)) (length f2)); [|discriminate].
  injection H2 as <- <-. rewrite skipn_length. lia.
Qed.

Lemma read_all_fuel k1 : forall k2 f, (length f < k1)%nat -> (length f < k2)%nat ->
  read_all k1 f = read_all k2 f.
Proof.
  induction k1 as [|k1 IH]; intros k2 f H1 H2; [lia|]. destruct k2 as [|k2]; [lia|].
  cbn [read_all]. destruct (f_has_more f); [|reflexivity].
  destruct (read_record f) as [[r f']|c| | |] eqn:E; try reflexivity.
  apply read_record_shrinks in E. rewrite (IH k2 f') by lia. reflexivity.
Qed.

Lemma read_all_no_diverge k f : (length f < k)%nat -> snd (read_all k f) <> Diverge.
Proof.
  revert f; induction k as [|k IH]; intros f H; [lia|]. cbn [read_all].
  destruct (f_has_more f); [|discriminate].
  destruct (read_record f) as [[r f']|c| | |] eqn:E; try discriminate.
  - apply read_record_shrinks in E. specialize (IH f' ltac:(lia)).
    destruct (read_all k f'); exact IH.
  - exfalso. unfold read_record, extract_varint32 in E.
    destruct (varint_loop 5 f) as [[[s t] r]|c| | |] eqn:V; cbn [bind] in E; try discriminate.
    + destruct t; cbn [bind] in E; [|discriminate]. unfold f_read in E. destruct (_ <=? _)%nat; discriminate.
    + clear -V. revert f V. generalize 5%nat. induction n as [|n IH]; intros f; cbn [varint_loop]; [discriminate|].
      destruct f as [|b f]; [discriminate|]. destruct (bz b <? 128); [discriminate|].
      intros H. destruct (varint_loop n f) as [[[? ?] ?]|c| | |] eqn:V; cbn [bind] in H; try discriminate.
      eapply IH; exact V.
Qed.

Lemma encode_record_nonempty r : exists b t, encode_record r = b :: t.
Proof.
  destruct (encode_record r) as [|b t] eqn:E; [|eauto].
  apply (f_equal (@length byte)) in E. rewrite encode_record_length in E. cbn [length] in E.
  pose proof (prefix_len_pos r). lia.
Qed.

Lemma has_more_encode r f : f_has_more (encode_record r ++ f) = true.
Proof. destruct (encode_record_nonempty r) as (b & t & ->). reflexivity. Qed.

Lemma read_records_cons r f : short r ->
  read_records (encode_record r ++ f) = (r :: fst (read_records f), snd (read_records f)).
Proof.
  intros Hs. fold (read_records f). unfold read_records at 1. cbn [read_all].
  rewrite has_more_encode, read_record_encode by exact Hs.
  rewrite app_length. pose proof (prefix_len_pos r).
  rewrite encode_record_length.
  rewrite (read_all_fuel _ (S (length f))) by lia. fold (read_records f).
  destruct (read_records f); reflexivity.
Qed.

Lemma read_write_records rs : Forall short rs -> read_records (write_records rs) = (rs, Ok tt).
Proof.
  induction 1 as [|r rs Hr _ IH]; [reflexivity|].
  cbn [write_records flat_map]. rewrite read_records_cons by exact Hr.
  fold (write_records rs). rewrite IH. reflexivity.
Qed.

(** Truncation. *)
Lemma read_cut_payload r j : short r -> (prefix_len r <= j < prefix_len r + length r)%nat ->
  read_records (firstn j (encode_record r)) = ([], Err Internal).
Proof.
  intros Hs Hj. unfold read_records. cbn [read_all].
  unfold encode_record. rewrite firstn_app.
  fold (prefix_len r). rewrite firstn_all2 by (unfold prefix_len in *; lia).
  set (w := write_varint32 (Z.of_nat (length r) mod 2 ^ 32)).
  set (t := firstn (j - prefix_len r) r).
  assert (Hm : f_has_more (w ++ t) = true).
  { destruct w eqn:E; [|reflexivity]. pose proof (prefix_len_pos r). unfold prefix_len in H.
    fold w in H. rewrite E in H. cbn in H. lia. }
  rewrite Hm. unfold read_record, w. rewrite extract_varint_ok by exact Hs. cbn [bind].
  rewrite Nat2Z.id. unfold f_read.
  assert (Hl : (length t < length r)%nat) by (unfold t; rewrite firstn_length; lia).
  destruct (Nat.leb_spec (length r) (length t)); [lia|]. reflexivity.
Qed.

Lemma read_cut_prefix r j : (0 < j < prefix_len r)%nat ->
  read_records (firstn j (encode_record r)) = ([], UB).
Proof.
  intros Hj. unfold read_records. cbn [read_all].
  unfold encode_record. rewrite firstn_app.
  replace (j - length (write_varint32 (Z.of_nat (length r) mod 2 ^ 32)))%nat with 0%nat
    by (unfold prefix_len in Hj; lia).
  rewrite firstn_O, app_nil_r.
  assert (Hm : f_has_more (firstn j (write_varint32 (Z.of_nat (length r) mod 2 ^ 32))) = true).
  { unfold prefix_len in Hj. destruct (write_varint32 _) as [|b w] eqn:E; [cbn in Hj; lia|].
    destruct j; [lia|]. reflexivity. }
  rewrite Hm. unfold read_record, extract_varint32, write_varint32.
  rewrite varint_loop_cut by (unfold prefix_len, write_varint32 in Hj; lia). reflexivity.
Qed.

Lemma write_records_cons r rs : write_records (r :: rs) = encode_record r ++ write_records rs.
Proof. reflexivity. Qed.

Lemma truncated_read rs : Forall short rs -> forall n, (n <= length (write_records rs))%nat ->
  exists k, (k <= length rs)%nat /\
    let base := length (write_records (firstn k rs)) in
    (n = base /\ read_records (firstn n (write_records rs)) = (firstn k rs, Ok tt)) \/
    (exists r, nth_error rs k = Some r /\
       (base + prefix_len r <= n < base + prefix_len r + length r)%nat /\
       read_records (firstn n (write_records rs)) = (firstn k rs, Err Internal)) \/
    (exists r, nth_error rs k = Some r /\
       (base < n < base + prefix_len r)%nat /\
       read_records (firstn n (write_records rs)) = (firstn k rs, UB)).
Proof.
  induction 1 as [|r rs Hr _ IH]; intros n Hn.
  - cbn in Hn. assert (n = 0)%nat as -> by lia. exists 0%nat. split; [cbn; lia|]. left. split; reflexivity.
  - rewrite write_records_cons in *. rewrite app_length in Hn.
    destruct (le_lt_dec (length (encode_record r)) n) as [Hge|Hlt].
    + destruct (IH (n - length (encode_record r))%nat ltac:(lia)) as (k & Hk & Hc).
      exists (S k). split; [cbn [length]; lia|].
      assert (Hf : firstn n (encode_record r ++ write_records rs) =
                   encode_record r ++ firstn (n - length (encode_record r)) (write_records rs)).
      { rewrite firstn_app, firstn_all2 by lia. reflexivity. }
      cbn [firstn nth_error]. rewrite write_records_cons, app_length, Hf, read_records_cons by exact Hr.
      cbn zeta in Hc |- *. destruct Hc as [(E & H)|[(r' & E & L & H)|(r' & E & L & H)]]; rewrite H; cbn [fst snd].
      * left. split; [lia|reflexivity].
      * right; left. exists r'. repeat split; try assumption; lia.
      * right; right. exists r'. repeat split; try assumption; lia.
    + exists 0%nat. split; [lia|]. cbn [firstn nth_error write_records flat_map length].
      rewrite firstn_app. replace (n - length (encode_record r))%nat with 0%nat by lia.
      rewrite firstn_O, app_nil_r. rewrite encode_record_length in Hlt.
      destruct (Nat.eq_dec n 0) as [->|Hn0]; [left; split; reflexivity|].
      destruct (le_lt_dec (prefix_len r) n) as [Hp|Hp].
      * right; left. exists r. repeat split; try lia. apply read_cut_payload; [exact Hr|lia].
      * right; right. exists r. repeat split; try lia. apply read_cut_prefix. lia.
Qed.

Lemma truncated_read_small rs n :
  Forall (fun r : bytes => Z.of_nat (length r) < 128) rs -> (n <= length (write_records rs))%nat ->
  exists k, (k <= length rs)%nat /\
    (read_records (firstn n (write_records rs)) = (firstn k rs, Ok tt) /\ n = length (write_records (firstn k rs)) \/
     read_records (firstn n (write_records rs)) = (firstn k rs, Err Internal)).
Proof.
  intros Hs Hn.
  assert (Hs' : Forall short rs) by (eapply Forall_impl; [|exact Hs]; intros r Hr; cbn beta in Hr; unfold short; lia).
  destruct (truncated_read rs Hs' n Hn) as (k & Hk & Hc). exists k. split; [exact Hk|].
  cbn zeta in Hc. destruct Hc as [(E & H)|[(r' & E & L & H)|(r' & E & L & H)]].
  - left; auto.
  - right; auto.
  - exfalso. apply nth_error_In in E. rewrite Forall_forall in Hs. specialize (Hs _ E).
    rewrite (prefix_len_small r' Hs) in L. lia.
Qed.

Lemma cut_in_prefix_witness : exists rs n,
  Forall (fun r : bytes => Z.of_nat (length r) < 2 ^ 32) rs /\ (n <= length (write_records rs))%nat /\
  snd (read_records (firstn n (write_records rs))) = UB.
Proof.
  exists [repeat x41 200], 1%nat. split; [|split].
  - constructor; [|constructor]. rewrite repeat_length. lia.
  - rewrite write_records_cons, app_length, encode_record_length, repeat_length. lia.
  - vm_compute. reflexivity.
Qed.

(** ** Any file *)
Lemma digits_value_cons b s : digits_value (b :: s) = bz b mod 128 + 128 * digits_value s.
Proof.
  unfold digits_value. cbn [length seq map fold_right nth]. change (128 ^ Z.of_nat 0) with 1. rewrite Z.mul_1_r. change (Z.of_N (Byte.to_N b)) with (bz b). f_equal.
  rewrite <- seq_shift, map_map. generalize (seq 0 (length s)) as js. induction js as [|j js IH]; cbn [map fold_right]; [reflexivity|]. rewrite IH. cbn [nth]. rewrite Nat2Z.inj_succ, Z.pow_succ_r by lia. ring.
Qed.
Lemma digits_varint s : digits_value s = varint_value s.
Proof. induction s as [|b s IH]; [reflexivity|]. rewrite digits_value_cons, IH. reflexivity. Qed.
Lemma varint_loop_cases n : forall f,
  (exists ini last r, f = ini ++ last :: r /\ (S (length ini) <= n)%nat /\ Forall continued ini /\ bz last < 128 /\ varint_loop n f = Ok (ini ++ [last], true, r)) \/
  (exists h r, f = h ++ r /\ length h = n /\ Forall continued h /\ varint_loop n f = Err InvalidArgument) \/
  ((length f < n)%nat /\ Forall continued f /\ varint_loop n f = Ok (f, false, [])).
Proof.
  induction n as [|n IH]; intros f.
  - right. left. exists [], f. repeat split. constructor.
  - destruct f as [|b f]; [right; right; split; [cbn; lia|split; [constructor|reflexivity]]|]. cbn [varint_loop]. destruct (Z.ltb_spec (bz b) 128) as [H|H].
    + left. exists [], b, f. split; [reflexivity|]. split; [cbn; lia|]. split; [constructor|]. split; [exact H|reflexivity].
    + destruct (IH f) as [(ini & last & r & -> & L1 & F & B & E)|[(h & r & -> & L1 & F & E)|(L1 & F & E)]]; rewrite E; cbn [bind].
      * left. exists (b :: ini), last, r. split; [reflexivity|]. split; [cbn [length]; lia|]. split; [constructor; assumption|]. split; [exact B|reflexivity].
      * right. left. exists (b :: h), r. split; [reflexivity|]. split; [cbn [length]; lia|]. split; [constructor; assumption|reflexivity].
      * right. right. split; [cbn [length]; lia|]. split; [constructor; assumption|reflexivity].
Qed.
Lemma header_loop ini last r : (length ini <= 4)%nat -> Forall continued ini -> ~ continued last -> varint_loop 5 (ini ++ last :: r) = Ok (ini ++ [last], true, r).
Proof.
  intros L1 F B. assert (GEN : forall n ini, (length ini < n)%nat -> Forall continued ini -> varint_loop n (ini ++ last :: r) = Ok (ini ++ [last], true, r)); [|apply GEN; [lia|exact F]].
  clear - B. unfold continued in B. fold (bz last) in B. intros n ini L1 F. revert n L1. induction F as [|b ini H F IH]; intros [|n] L1; cbn [length] in L1; try lia; cbn [app varint_loop].
  - destruct (Z.ltb_spec (bz last) 128); [reflexivity|contradiction].
  - unfold continued in H. fold (bz b) in H. destruct (Z.ltb_spec (bz b) 128); [lia|]. rewrite IH by lia. reflexivity.
Qed.
Lemma header_extract h n f : header h n -> extract_varint32 (h ++ f) = Ok (n, f) /\ 0 <= n.
Proof.
  intros (ini & last & -> & L1 & F & B & ->). rewrite <- app_assoc. cbn [app]. unfold extract_varint32. rewrite (header_loop ini last f L1 F B). cbn [bind]. unfold read_varint32. rewrite digits_varint.
  split; [reflexivity|]. apply Z.mod_pos_bound. lia.
Qed.
Lemma continued_loop n : forall h f, (length h = n \/ (length h < n)%nat /\ f = []) -> Forall continued h -> varint_loop n (h ++ f) = if (length h =? n)%nat then Err InvalidArgument else Ok (h, false, []).
Proof.
  induction n as [|n IH]; intros h f Hl F.
  - destruct h; [reflexivity|]. cbn [length] in Hl. lia.
  - destruct F as [|b h H F]; cbn [app varint_loop length Nat.eqb].
    + destruct Hl as [Hl|[_ ->]]; [discriminate|reflexivity].
    + unfold continued in H. fold (bz b) in H. destruct (Z.ltb_spec (bz b) 128); [lia|]. cbn [length] in Hl. rewrite IH; [|destruct Hl as [Hl|[Hl Hf]]; [left; lia|right; split; [lia|exact Hf]]|exact F].
      destruct (length h =? n)%nat; reflexivity.
Qed.
Definition ended (e : ending) : outcome unit := match e with Clean => Ok tt | Short_record => Err Internal | Long_header => Err InvalidArgument | Cut_header => UB end.
Lemma header_nonempty h n : header h n -> (1 <= length h)%nat.
Proof. intros (ini & last & -> & _). rewrite app_length. cbn [length]. lia. Qed.
Lemma more_of_nonempty (f : bytes) : (1 <= length f)%nat -> f_has_more f = true.
Proof. destruct f; [cbn [length]; lia|reflexivity]. Qed.
Lemma divided_read f rs e : divided f rs e -> read_records f = (rs, ended e).
Proof.
  intros D. unfold read_records. assert (GEN : forall k, (length f < k)%nat -> read_all k f = (rs, ended e)); [|apply GEN; lia].
  induction D as [|h r f rs e H D IH|h n f H Hl|h f L1 F|h L1 F]; intros [|k] Hk; try lia; cbn [read_all].
  - reflexivity.
  - pose proof (header_nonempty _ _ H) as H1. rewrite more_of_nonempty by (rewrite app_length; lia). unfold read_record. destruct (header_extract _ _ (r ++ f) H) as [E _]. rewrite E. cbn [bind]. rewrite Nat2Z.id.
    unfold f_read. rewrite app_length. destruct (Nat.leb_spec (length r) (length r + length f)); [|lia]. rewrite firstn_app, Nat.sub_diag, firstn_all, firstn_O, app_nil_r, skipn_app, skipn_all, Nat.sub_diag. cbn [app skipn].
    rewrite IH by (rewrite !app_length in Hk; lia). reflexivity.
  - pose proof (header_nonempty _ _ H) as H1. rewrite more_of_nonempty by (rewrite app_length; lia). unfold read_record. destruct (header_extract _ _ f H) as [E Hn]. rewrite E. cbn [bind]. unfold f_read. destruct (Nat.leb_spec (Z.to_nat n) (length f)); [lia|reflexivity].
  - rewrite more_of_nonempty by (rewrite app_length; lia). unfold read_record, extract_varint32. rewrite continued_loop by (first [exact F|left; exact L1]). rewrite L1. reflexivity.
  - rewrite more_of_nonempty by lia. unfold read_record, extract_varint32. rewrite <- (app_nil_r h) at 1. rewrite continued_loop by (first [exact F|right; split; [lia|reflexivity]]). destruct (Nat.eqb_spec (length h) 5); [lia|reflexivity].
Qed.
Lemma every_file_divided f : exists rs e, divided f rs e.
Proof.
  remember (length f) as k eqn:Hk. revert f Hk. induction k as [k IH] using lt_wf_ind. intros f ->. destruct f as [|b0 f0]; [exists [], Clean; constructor|].
  destruct (varint_loop_cases 5 (b0 :: f0)) as [(ini & last & r & Ef & L1 & F & B & _)|[(h & r & Ef & L1 & F & _)|(L1 & F & _)]].
  - set (h := ini ++ [last]). set (n := digits_value h mod 2 ^ 32). assert (Hh : header h n).
    { exists ini, last. split; [reflexivity|]. split; [lia|]. split; [exact F|]. split; [unfold continued; fold (bz last); lia|reflexivity]. }
    assert (E1 : b0 :: f0 = h ++ r) by (unfold h; rewrite <- app_assoc; exact Ef). assert (Hn : 0 <= n) by (apply Z.mod_pos_bound; lia). rewrite E1 in *. destruct (Z_lt_le_dec (Z.of_nat (length r)) n) as [Hs|Hs].
    + exists [], Short_record. apply (div_short h n); assumption.
    + rewrite <- (firstn_skipn (Z.to_nat n) r). assert (Lf : length (firstn (Z.to_nat n) r) = Z.to_nat n) by (rewrite firstn_length; lia).
      destruct (IH (length (skipn (Z.to_nat n) r)) ltac:(rewrite app_length, skipn_length; pose proof (header_nonempty _ _ Hh); lia) _ eq_refl) as (rs & e & D). exists (firstn (Z.to_nat n) r :: rs), e. constructor; [|exact D].
      rewrite Lf, Z2Nat.id by exact Hn. exact Hh.
  - exists [], Long_header. rewrite Ef. constructor; assumption.
  - exists [], Cut_header. constructor; [cbn [length] in *; lia|exact F].
Qed.
Lemma read_oversized r f : read_record (encode_record r ++ f) = let k := Z.to_nat (Z.of_nat (length r) mod 2 ^ 32) in Ok (firstn k r, skipn k r ++ f).
Proof.
  cbv zeta. unfold read_record, encode_record. rewrite <- app_assoc. unfold extract_varint32, write_varint32.
  rewrite varint_loop_groups by (try apply size_range; lia). cbn [bind]. unfold read_varint32. rewrite varint_groups_value by (try apply size_range; lia). rewrite Z.mod_mod by lia.
  pose proof (Z.mod_le (Z.of_nat (length r)) (2 ^ 32) ltac:(lia) ltac:(lia)) as B. set (k := Z.to_nat (Z.of_nat (length r) mod 2 ^ 32)). assert (Hk : (k <= length r)%nat) by (unfold k; lia).
  unfold f_read. rewrite app_length. destruct (Nat.leb_spec k (length r + length f)); [|lia]. rewrite firstn_app, skipn_app. replace (k - length r)%nat with 0%nat by lia. cbn [firstn skipn]. rewrite app_nil_r. reflexivity.
Qed.
