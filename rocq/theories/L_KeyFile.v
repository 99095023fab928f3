(** Lemmas on message files. *)
From Verif Require Import Base M_BigNum S_BigNum L_BigNum M_RecordIO L_RecordIO M_Shard M_EC M_ElGamal M_Wire L_Wire M_KeyFile.

Lemma get_varint_groups n m v r : 0 <= v < 128 ^ Z.of_nat n -> 0 <= v < 128 ^ Z.of_nat m -> (1 <= n)%nat -> (1 <= m)%nat ->
  get_varint n (varint_groups m v ++ r) = Some (v, r).
Proof.
  revert m v. induction n as [|n IH]; intros m v Hn Hm Ln Lm; [lia|]. destruct m as [|m]; [lia|]. rewrite pow128_S in Hn, Hm.
  cbn [varint_groups]. destruct (Z.ltb_spec v 128) as [Hlt|Hge]; cbn [app get_varint].
  - rewrite bz_small by lia. destruct (Z.ltb_spec v 128); [reflexivity|lia].
  - pose proof (Z.mod_pos_bound v 128 ltac:(lia)). rewrite bz_small by lia. destruct (Z.ltb_spec (v mod 128 + 128) 128); [lia|].
    destruct n as [|n]; [change (128 ^ Z.of_nat 0) with 1 in Hn; lia|]. destruct m as [|m]; [change (128 ^ Z.of_nat 0) with 1 in Hm; lia|].
    rewrite IH; [|split; [apply Z.div_pos; lia|apply Z.div_lt_upper_bound; lia]|split; [apply Z.div_pos; lia|apply Z.div_lt_upper_bound; lia]|lia|lia].
    do 2 f_equal. pose proof (Z.div_mod v 128 ltac:(lia)). lia.
Qed.
Lemma get_varint_ok n v r : (1 <= n)%nat -> 0 <= v < 128 ^ Z.of_nat n -> get_varint n (varint v ++ r) = Some (v, r).
Proof. intros L H. apply get_varint_groups; [exact H|split; [lia|apply varint_bound; lia]|exact L|lia]. Qed.

(** What an encoder produces for the messages considered here. *)
Definition fits (e : entry) : Prop :=
  match e with
  | EVarint k v => 1 <= k < 2 ^ 29 /\ 0 <= v < 2 ^ 64
  | ELen k b => 1 <= k < 2 ^ 29 /\ Z.of_nat (length b) < 2 ^ 31
  end.

Lemma get_bytes_app b r : get_bytes (Z.of_nat (length b)) (b ++ r) = Some (b, r).
Proof.
  unfold get_bytes. rewrite app_length. destruct (Z.ltb_spec (Z.of_nat (length b + length r)) (Z.of_nat (length b))); [lia|].
  rewrite Nat2Z.id, firstn_app, skipn_app, firstn_all, skipn_all, Nat.sub_diag. cbn [firstn skipn]. rewrite app_nil_r. reflexivity.
Qed.

Lemma get_field_ok e r : fits e -> get_field (enc_entry e ++ r) = Some (Some e, r).
Proof.
  assert (P29 : 2 ^ 29 = 536870912) by reflexivity. assert (P31 : 2 ^ 31 = 2147483648) by reflexivity. assert (P32 : 2 ^ 32 = 4294967296) by reflexivity.
  assert (P5 : 128 ^ Z.of_nat 5 = 34359738368) by reflexivity. assert (P10 : 2 ^ 64 < 128 ^ Z.of_nat 10) by reflexivity.
  destruct e as [k v|k b]; cbn [fits enc_entry]; intros [Hk Hv]; unfold get_field; rewrite <- !app_assoc.
  - rewrite get_varint_ok by lia. cbv zeta. rewrite (Z.mod_small (8 * k)) by lia.
    replace ((8 * k) mod 8) with 0 by (rewrite Z.mul_comm, Z.mod_mul; lia). replace (8 * k / 8) with k by (rewrite Z.mul_comm, Z.div_mul; lia).
    destruct (Z.eqb_spec k 0); [lia|]. rewrite get_varint_ok by lia. rewrite Z.mod_small by lia. reflexivity.
  - rewrite get_varint_ok by lia. cbv zeta. rewrite (Z.mod_small (8 * k + 2)) by lia.
    replace ((8 * k + 2) mod 8) with 2 by (rewrite Z.add_comm, Z.mul_comm, Z.mod_add by lia; reflexivity).
    replace ((8 * k + 2) / 8) with k by (rewrite Z.add_comm, Z.mul_comm, Z.div_add by lia; reflexivity).
    destruct (Z.eqb_spec k 0); [lia|]. rewrite get_varint_ok by lia. rewrite get_bytes_app. reflexivity.
Qed.

Lemma enc_entry_pos e : (1 <= length (enc_entry e))%nat.
Proof. pose proof (enc_entry_nonempty e []) as H. rewrite app_nil_r in H. destruct (enc_entry e); [contradiction|cbn; lia]. Qed.

Lemma get_fields_ok es : Forall fits es -> forall fuel, (length (enc_msg es) <= fuel)%nat -> get_fields fuel (enc_msg es) = (es, true).
Proof.
  induction 1 as [|e es He Hes IH]; intros fuel Hf; [destruct fuel; reflexivity|].
  change (enc_msg (e :: es)) with (enc_entry e ++ enc_msg es) in *. rewrite app_length in Hf. pose proof (enc_entry_pos e) as Hp.
  destruct fuel as [|fuel]; [lia|].
  assert (Hc : get_fields (S fuel) (enc_entry e ++ enc_msg es) = match get_field (enc_entry e ++ enc_msg es) with None => ([], false)
      | Some (e, r) => let '(es, ok) := get_fields fuel r in (match e with Some e => e :: es | None => es end, ok) end).
  { cbn [get_fields]. destruct (enc_entry e ++ enc_msg es) eqn:E; [destruct (enc_entry_nonempty e (enc_msg es) E)|reflexivity]. }
  rewrite Hc, (get_field_ok e _ He), IH by lia. reflexivity.
Qed.
Lemma parse_ok es : Forall fits es -> parse_message (enc_msg es) = (es, true).
Proof. intros H. apply get_fields_ok; [exact H|lia]. Qed.

Lemma fits_bytes k b : 1 <= k < 2 ^ 29 -> Z.of_nat (length b) < 2 ^ 31 -> Forall fits (f_bytes k b).
Proof. intros Hk Hb. destruct b; constructor; [|constructor]. split; assumption. Qed.
Lemma fits_int k v : 1 <= k < 2 ^ 29 -> Forall fits (f_int64 k v).
Proof.
  intros Hk. unfold f_int64. destruct (v =? 0); constructor; [|constructor]. split; [exact Hk|]. apply Z.mod_pos_bound. reflexivity.
Qed.

(** *** The messages. *)
Lemma public_message m : Z.of_nat (length (fst m)) < 2 ^ 31 -> Z.of_nat (length (snd m)) < 2 ^ 31 ->
  from_string public_of_entries (to_string public_entries m) = m.
Proof.
  destruct m as [g y]. cbn [fst snd]. intros Hg Hy. unfold from_string, to_string, public_entries. cbn [fst snd]. rewrite parse_ok.
  - cbn [fst]. destruct g as [|a g], y as [|b y]; reflexivity.
  - apply Forall_app. split; apply fits_bytes; try assumption; split; reflexivity || discriminate.
Qed.
Lemma secret_message x : Z.of_nat (length x) < 2 ^ 31 -> from_string secret_of_entries (to_string secret_entries x) = x.
Proof.
  intros Hx. unfold from_string, to_string, secret_entries. rewrite parse_ok; [destruct x; reflexivity|]. apply fits_bytes; [split; reflexivity || discriminate|exact Hx].
Qed.
Lemma wrap32_int32 v : - 2 ^ 31 <= v < 2 ^ 31 -> wrap32 (v mod 2 ^ 64) = v.
Proof.
  intros H. unfold wrap32. change (2 ^ 64) with (2 ^ 32 * 2 ^ 32). rewrite Z.rem_mul_r by (vm_compute; congruence).
  replace (v mod 2 ^ 32 + 2 ^ 32 * ((v / 2 ^ 32) mod 2 ^ 32) + 2 ^ 31) with (v mod 2 ^ 32 + 2 ^ 31 + (v / 2 ^ 32) mod 2 ^ 32 * 2 ^ 32) by ring.
  rewrite Z_mod_plus_full, Zplus_mod_idemp_l, Z.mod_small; [ring|]. change (2 ^ 32) with (2 ^ 31 + 2 ^ 31). lia.
Qed.
Lemma ec_key_message m : - 2 ^ 31 <= fst m < 2 ^ 31 -> Z.of_nat (length (snd m)) < 2 ^ 31 ->
  from_string ec_key_of_entries (to_string ec_key_entries m) = m.
Proof.
  destruct m as [c k]. cbn [fst snd]. intros Hc Hk. unfold from_string, to_string, ec_key_entries. cbn [fst snd]. rewrite parse_ok.
  - cbn [fst]. unfold ec_key_of_entries, f_int64. destruct (Z.eqb_spec c 0) as [->|Nc]; destruct k as [|a k]; cbn [app f_bytes];
      unfold get_f_int32, get_f_bytes; cbn [fold_left Z.eqb Pos.eqb]; try reflexivity; rewrite (wrap32_int32 c Hc); reflexivity.
  - apply Forall_app. split; [apply fits_int; split; reflexivity || discriminate|apply fits_bytes; [split; reflexivity || discriminate|exact Hk]].
Qed.

Lemma varint_groups_len n v : (length (varint_groups n v) <= n)%nat.
Proof. apply varint_groups_length. Qed.
Lemma varint_len v k : 0 <= v < 128 ^ Z.of_nat k -> (length (varint v) <= Nat.max 1 k)%nat.
Proof.
  unfold varint. generalize (S (Z.to_nat (Z.log2 v))). intros f. revert v k. induction f as [|f IH]; intros v k Hv; [cbn; lia|].
  cbn [varint_groups]. destruct (Z.ltb_spec v 128) as [|Hge]; [cbn [length]; lia|]. cbn [length].
  destruct k as [|k]; [change (128 ^ Z.of_nat 0) with 1 in Hv; lia|]. rewrite pow128_S in Hv.
  assert (B : 0 <= v / 128 < 128 ^ Z.of_nat k) by (split; [apply Z.div_pos; lia|apply Z.div_lt_upper_bound; lia]).
  specialize (IH _ _ B). destruct k as [|k]; [change (128 ^ Z.of_nat 0) with 1 in Hv; lia|]. lia.
Qed.
(** A field with number below 16 takes at most 6 bytes more than its payload. *)
Lemma f_bytes_len k b : 0 <= k < 16 -> Z.of_nat (length b) < 2 ^ 31 -> (length (enc_msg (f_bytes k b)) <= 6 + length b)%nat.
Proof.
  intros Hk Hb. destruct b as [|a b]; [cbn; lia|]. set (x := a :: b) in *. change (enc_msg (f_bytes k x)) with (enc_entry (ELen k x) ++ []). cbn [enc_entry]. rewrite !app_length. cbn [length].
  pose proof (varint_len (8 * k + 2) 2 ltac:(change (128 ^ Z.of_nat 2) with 16384; lia)).
  assert (8 * k + 2 < 128 \/ 128 <= 8 * k + 2) as [L|L] by lia.
  - pose proof (varint_len (8 * k + 2) 1 ltac:(change (128 ^ Z.of_nat 1) with 128; lia)).
    pose proof (varint_len (Z.of_nat (length x)) 5 ltac:(change (128 ^ Z.of_nat 5) with 34359738368; change (2 ^ 31) with 2147483648 in Hb; lia)). lia.
  - lia.
Qed.
Lemma enc_msg_app a b : enc_msg (a ++ b) = enc_msg a ++ enc_msg b.
Proof. unfold enc_msg. rewrite map_app, concat_app. reflexivity. Qed.
Lemma to_bytes_length x s n : to_bytes x = Ok s -> x < 256 ^ n -> Z.of_nat (length s) <= Z.max 0 n.
Proof.
  intros E H. pose proof (to_bytes_canonical _ _ E) as Hc. destruct (to_bytes_ok _ _ E) as [H0 Ev]. rewrite of_bytes_value in Ev.
  destruct s as [|b s]; [cbn; lia|]. pose proof (canonical_lower b s Hc) as Hl. rewrite Ev in Hl.
  assert (Z.of_nat (length s) < n); [|cbn [length]; lia]. destruct (Z.lt_ge_cases (Z.of_nat (length s)) n) as [|G]; [assumption|].
  destruct (Z.lt_ge_cases n 0) as [N|N]; [rewrite Z.pow_neg_r in H by lia; lia|].
  pose proof (Z.pow_le_mono_r 256 n (Z.of_nat (length s)) ltac:(lia) G). lia.
Qed.

(** *** Files. *)
Section Files.
  Variable M : Type.
  Variable enc : M -> bytes.
  Variable dec : bytes -> M.

  Lemma write_protos_cases fl d name ms :
    let (d', r) := write_protos M enc fl d name ms in
    (r = Ok tt /\ d' = fs_set d name (write_records (map enc ms))) \/
    (r = Err NotFound /\ d' = d) \/ (exists c, r = Err Internal /\ d' = fs_set d name c).
  Proof.
    unfold write_protos. destruct (fl_open fl); [right; left; split; reflexivity|]. destruct (fl_write fl) as [[i c]|].
    - destruct (i <? length ms)%nat; [right; right; exists c; split; reflexivity|]. destruct (fl_close fl) as [c'|]; [right; right; exists c'; split; reflexivity|left; split; reflexivity].
    - destruct (fl_close fl) as [c'|]; [right; right; exists c'; split; reflexivity|left; split; reflexivity].
  Qed.
End Files.
