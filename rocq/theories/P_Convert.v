(** C87: numbers and bytes in the three languages. *)
From Verif Require Import Base M_BigNum S_BigNum L_BigNum M_Java M_Python L_Port.

(** Python: the bytes of a number, padded to whole blocks, read back as the number; negative numbers are refused. *)
Theorem C87_python_roundtrip : forall n blocksize,
  (0 <= n -> exists s, long_to_bytes n blocksize = Ok s /\ bytes_to_long s = n /\ be_value s = n /\ s <> [] /\
     ((0 < blocksize)%nat -> Nat.modulo (length s) blocksize = 0%nat /\ (length s < length (match strip_zeros s with [] => [x00] | t => t end) + blocksize)%nat)) /\
  (n < 0 -> long_to_bytes n blocksize = Err InvalidArgument).
Proof.
  intros n bs. unfold long_to_bytes. destruct (Z.ltb_spec n 0) as [Hn|Hn]; (split; [intros H|intros H]); try lia; [reflexivity|].
  pose proof (packed_value n Hn) as Hp. set (q := pack _) in *. pose proof (from_first_nonzero_strip q) as Eq. set (t := from_first_nonzero q) in *.
  assert (Ht : be_value t = n). { rewrite Eq. destruct (strip_zeros q) as [|b l] eqn:E; [apply strip_zeros_nil in E; rewrite <- Hp, E; reflexivity|]. rewrite <- E, strip_zeros_value. exact Hp. }
  assert (Hne : t <> []) by (rewrite Eq; destruct (strip_zeros q); discriminate).
  assert (Hst : match strip_zeros t with [] => [x00] | b :: l => b :: l end = t).
  { rewrite Eq. destruct (strip_zeros q) as [|b l] eqn:E; [reflexivity|]. pose proof (strip_zeros_canonical q) as Hc. rewrite E in Hc. cbn in Hc. cbn [strip_zeros]. destruct (Z.eqb_spec (bz b) 0); [contradiction|reflexivity]. }
  clearbody t. clear Eq. eexists. split; [reflexivity|]. destruct (Nat.ltb_spec 0 bs) as [Hb|Hb].
  - rewrite bytes_to_long_eq, of_bytes_value, pad_value. split; [exact Ht|]. split; [exact Ht|]. pose proof (pad_length t bs Hb) as [Hm Hl]. split; [intros E; rewrite E in Hl; destruct t; [contradiction|cbn in Hl; lia]|]. intros _. split; [exact Hm|].
    assert (Es : strip_zeros (pad_zero_bytes t bs) = strip_zeros t).
    { unfold pad_zero_bytes. destruct (Nat.eqb _ _); [reflexivity|]. induction (bs - Nat.modulo (length t) bs)%nat as [|k IH]; [reflexivity|]. cbn [repeat app strip_zeros]. rewrite bz_x00. exact IH. }
    rewrite Es, Hst. lia.
  - rewrite bytes_to_long_eq, of_bytes_value. split; [exact Ht|]. split; [exact Ht|]. split; [exact Hne|]. intros H0. lia.
Qed.
Print Assumptions C87_python_roundtrip.
Example C87_python_roundtrip_ex : long_to_bytes 4294967298 0 = Ok [x01; x00; x00; x00; x02] /\ long_to_bytes 4294967298 4 = Ok [x00; x00; x00; x01; x00; x00; x00; x02] /\ bytes_to_long [x01; x00; x00; x00; x02] = 4294967298.
Proof. repeat split; vm_compute; reflexivity. Qed.

(** Reading bytes is the positional value in all three languages, whatever the length and however many leading zeros. *)
Theorem C87_same_numbers : forall s, of_bytes s = be_value s /\ java_number s = be_value s /\ bytes_to_long s = be_value s.
Proof. intros s. rewrite java_number_eq, bytes_to_long_eq, of_bytes_value. tauto. Qed.
Print Assumptions C87_same_numbers.
Example C87_same_numbers_ex : java_number [xff; x01] = 65281 /\ bytes_to_long [xff; x01] = 65281 /\ of_byte_array [xff; x01] = -255. Proof. repeat split; vm_compute; reflexivity. Qed.

(** Writing a positive number gives the same bytes, the shortest ones. *)
Theorem C87_same_bytes : forall n, 0 < n -> exists s, to_bytes n = Ok s /\ java_bytes n = Ok s /\ long_to_bytes n 0 = Ok s /\ bn_to_bytes n = s /\ canonical s /\ be_value s = n.
Proof.
  intros n Hn. destruct (to_bytes_of n ltac:(lia)) as (s & E & Ev). exists s. rewrite java_bytes_pos, long_to_bytes_pos by exact Hn. pose proof (bn_to_bytes_pos n ltac:(lia)) as Eb. rewrite E in Eb. injection Eb as Eb.
  split; [exact E|]. split; [exact E|]. split; [exact E|]. split; [symmetry; exact Eb|]. split; [exact (to_bytes_canonical n s E)|]. rewrite <- of_bytes_value. exact Ev.
Qed.
Print Assumptions C87_same_bytes.
Example C87_same_bytes_ex : java_bytes 65281 = Ok [xff; x01] /\ long_to_bytes 65281 0 = Ok [xff; x01] /\ to_bytes 65281 = Ok [xff; x01]. Proof. repeat split; vm_compute; reflexivity. Qed.

(** Zero is written in three different ways, although all of them announce to be compatible. *)
Theorem C87_zero_refuted : to_bytes 0 = Ok [] /\ long_to_bytes 0 0 = Ok [x00] /\ bn_to_bytes 0 = [] /\ java_bytes 0 = Crash.
Proof. repeat split; vm_compute; reflexivity. Qed.
Print Assumptions C87_zero_refuted.

(** Java: bytes to number and back removes the leading zeros, and fails when nothing else is there. *)
Theorem C87_java_roundtrip : forall s, java_bytes (java_number s) = if Z.eqb (be_value s) 0 then Crash else Ok (strip_zeros s).
Proof.
  intros s. rewrite java_number_eq, of_bytes_value. pose proof (be_value_range s) as R. destruct (Z.eqb_spec (be_value s) 0) as [E|E]; [rewrite E; reflexivity|]. rewrite java_bytes_pos, <- of_bytes_value by lia. apply to_bytes_of_bytes.
Qed.
Print Assumptions C87_java_roundtrip.
Example C87_java_roundtrip_ex : java_bytes (java_number [x00; x80]) = Ok [x80] /\ java_bytes (java_number [x00; x00]) = Crash. Proof. split; vm_compute; reflexivity. Qed.

(** Python's way back from an OpenSSL number drops the sign. *)
Theorem C87_from_openssl : forall a, bn_to_long a = Z.abs a. Proof. exact bn_to_long_abs. Qed.
Print Assumptions C87_from_openssl.
Theorem C87_sign_refuted : exists a b, a <> b /\ bn_to_long a = bn_to_long b. Proof. exists 5, (-5). split; [lia|vm_compute; reflexivity]. Qed.
Print Assumptions C87_sign_refuted.
Example C87_from_openssl_ex : bn_to_long (5 - 8) = 3. Proof. vm_compute. reflexivity. Qed.
