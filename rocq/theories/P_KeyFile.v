(** C61 (messages in files) and C62 (key files). *)
From Coq Require Import Permutation.
From Verif Require Import Base M_BigNum S_BigNum L_BigNum M_RecordIO L_RecordIO M_Shard L_Shard M_EC L_EC L_Toy L_Cipher M_ElGamal S_ElGamal L_ElGamal M_Wire L_Wire M_KeyFile S_KeyFile L_KeyFile.
From Verif Require P_RecordIO P_ElGamal.

(** ** C61: what was written without an error is what is read. *)
Theorem C61_file_roundtrip : forall (M : Type) (enc : M -> bytes) (dec : bytes -> M) fl d name ms d',
  (forall m, In m ms -> dec (enc m) = m /\ Z.of_nat (length (enc m)) < 2 ^ 32) ->
  write_protos M enc fl d name ms = (d', Ok tt) ->
  only_changed d d' name /\ read_protos M dec d' name = Ok ms /\
  match ms with m :: _ => read_proto M dec d' name = Ok m | [] => True end.
Proof.
  intros M enc dec fl d name ms d' H E. pose proof (write_protos_cases M enc fl d name ms) as Q. rewrite E in Q.
  destruct Q as [[_ ->]|[[? _]|(c & ? & _)]]; try discriminate.
  assert (Hs : Forall short (map enc ms)) by (apply Forall_forall; intros r Hr; apply in_map_iff in Hr; destruct Hr as (m & <- & Hm); apply H, Hm).
  split; [intros n Hn; unfold fs_set; destruct (bytes_eqb n name) eqn:En; [apply bytes_eqb_eq in En; contradiction|reflexivity]|].
  unfold read_protos, read_proto. unfold fs_set. rewrite bytes_eqb_refl. split.
  - rewrite (read_write_records _ Hs). cbn [bind]. f_equal. rewrite map_map. transitivity (map (fun m : M => m) ms); [|apply map_id]. apply map_ext_in. intros m Hm. apply H, Hm.
  - destruct ms as [|m ms]; [exact I|]. cbn [map]. change (write_records (enc m :: map enc ms)) with (encode_record (enc m) ++ write_records (map enc ms)).
    inversion Hs as [|? ? S1 S2]. rewrite read_record_encode by exact S1. cbn [bind]. f_equal. apply H. left. reflexivity.
Qed.
Print Assumptions C61_file_roundtrip.
(** A write either succeeds or reports an error; it touches no other file; without faults it succeeds. *)
Theorem C61_write_reports : forall (M : Type) (enc : M -> bytes) fl d name ms d' r, write_protos M enc fl d name ms = (d', r) ->
  only_changed d d' name /\ (r = Ok tt \/ r = Err NotFound /\ d' = d \/ r = Err Internal) /\ (fl = no_fault -> r = Ok tt).
Proof.
  intros M enc fl d name ms d' r E. pose proof (write_protos_cases M enc fl d name ms) as Q. rewrite E in Q.
  assert (O1 : forall c, only_changed d (fs_set d name c) name) by (intros c n Hn; unfold fs_set; destruct (bytes_eqb n name) eqn:En; [apply bytes_eqb_eq in En; contradiction|reflexivity]).
  split; [|split].
  - destruct Q as [[_ ->]|[[_ ->]|(c & _ & ->)]]; [apply O1|intros n _; reflexivity|apply O1].
  - destruct Q as [[-> _]|[[-> ->]|(c & -> & _)]]; tauto.
  - intros ->. unfold write_protos, no_fault in E. cbn [fl_open fl_write fl_close] in E. injection E as _ <-. reflexivity.
Qed.
Print Assumptions C61_write_reports.
(** The three messages the library keeps in files survive encoding and decoding. *)
Theorem C61_messages :
  (forall g y, Z.of_nat (length g) < 2 ^ 31 -> Z.of_nat (length y) < 2 ^ 31 -> from_string public_of_entries (to_string public_entries (g, y)) = (g, y)) /\
  (forall x, Z.of_nat (length x) < 2 ^ 31 -> from_string secret_of_entries (to_string secret_entries x) = x) /\
  (forall id k, - 2 ^ 31 <= id < 2 ^ 31 -> Z.of_nat (length k) < 2 ^ 31 -> from_string ec_key_of_entries (to_string ec_key_entries (id, k)) = (id, k)).
Proof.
  split; [intros g y Hg Hy; apply public_message; assumption|]. split; [exact secret_message|]. intros id k Hi Hk. apply ec_key_message; assumption.
Qed.
Print Assumptions C61_messages.
(** As in every protobuf reader, two messages written one after the other read as the second one with the fields it leaves out taken from the first. *)
Theorem C61_concatenation_merges : forall g y g' y', Z.of_nat (length g) < 2 ^ 31 -> Z.of_nat (length y) < 2 ^ 31 -> Z.of_nat (length g') < 2 ^ 31 -> Z.of_nat (length y') < 2 ^ 31 ->
  let over (a b : bytes) := match b with [] => a | _ => b end in
  from_string public_of_entries (to_string public_entries (g, y) ++ to_string public_entries (g', y')) = (over g g', over y y') /\
  from_string secret_of_entries (to_string secret_entries y ++ to_string secret_entries y') = over y y' /\
  forall id id', - 2 ^ 31 <= id < 2 ^ 31 -> - 2 ^ 31 <= id' < 2 ^ 31 ->
    from_string ec_key_of_entries (to_string ec_key_entries (id, y) ++ to_string ec_key_entries (id', y')) = ((if id' =? 0 then id else id'), over y y').
Proof.
  intros g y g' y' Hg Hy Hg' Hy' over. unfold from_string, to_string. split; [|split; [|intros id id' Hi Hi']]; rewrite <- enc_msg_app, parse_ok.
  - destruct g, y, g', y'; reflexivity.
  - unfold public_entries. cbn [fst snd]. rewrite !Forall_app. repeat split; apply fits_bytes; (assumption || (split; reflexivity || discriminate)).
  - destruct y, y'; reflexivity.
  - unfold secret_entries. rewrite !Forall_app. repeat split; apply fits_bytes; (assumption || (split; reflexivity || discriminate)).
  - unfold ec_key_entries, ec_key_of_entries, f_int64. cbn [fst snd]. f_equal.
    + destruct (Z.eqb_spec id 0), (Z.eqb_spec id' 0); subst; destruct y, y'; cbn [app f_bytes get_f_int32 fold_left fst]; change (1 =? 1) with true; cbv iota; rewrite ?wrap32_int32 by assumption; reflexivity.
    + destruct (id =? 0), (id' =? 0), y, y'; reflexivity.
  - unfold ec_key_entries. cbn [fst snd]. rewrite !Forall_app. repeat split; (apply fits_bytes || apply fits_int); (assumption || (split; reflexivity || discriminate)).
Qed.
Print Assumptions C61_concatenation_merges.

(** A missing file is reported, and so is a file too short to hold a message; nothing but the named file matters. *)
Theorem C61_unreadable_reported : forall (M : Type) (dec : bytes -> M) d name,
  (d name = None -> read_proto M dec d name = Err NotFound /\ read_protos M dec d name = Err NotFound) /\
  (forall r kept, Z.of_nat (length r) < 2 ^ 32 -> (kept < length r)%nat ->
     d name = Some (write_varint32 (Z.of_nat (length r)) ++ firstn kept r) -> read_proto M dec d name = Err Internal) /\
  (forall d', d' name = d name -> read_proto M dec d' name = read_proto M dec d name /\ read_protos M dec d' name = read_protos M dec d name).
Proof.
  intros M dec d name. split; [|split].
  - intros E. unfold read_proto, read_protos. rewrite E. auto.
  - intros r kept Hr Hk E. unfold read_proto. rewrite E. unfold read_record.
    pose proof (extract_varint_ok r (firstn kept r) Hr) as X. rewrite Z.mod_small in X by lia. rewrite X. cbn [bind].
    unfold f_read. rewrite Nat2Z.id, firstn_length. destruct (Nat.leb_spec (length r) (Nat.min kept (length r))); [lia|reflexivity].
  - intros d' E. unfold read_proto, read_protos. rewrite E. auto.
Qed.
Print Assumptions C61_unreadable_reported.
(** A file that lost its tail is never read as something else: an OK answer is a prefix of what was written. *)
Theorem C61_truncated : forall (M : Type) (enc : M -> bytes) (dec : bytes -> M) d name ms n f,
  (forall m, In m ms -> dec (enc m) = m /\ Z.of_nat (length (enc m)) < 2 ^ 32) ->
  f = firstn n (write_records (map enc ms)) -> d name = Some f ->
  forall ms', read_protos M dec d name = Ok ms' -> exists k, ms' = firstn k ms /\ f = write_records (map enc ms').
Proof.
  intros M enc dec d name ms n f H Ef Ed ms' E. unfold read_protos in E. rewrite Ed in E.
  assert (Hs : Forall short (map enc ms)) by (apply Forall_forall; intros r Hr; apply in_map_iff in Hr; destruct Hr as (m & <- & Hm); apply H, Hm).
  set (w := write_records (map enc ms)) in *. assert (Ef' : f = firstn (Nat.min n (length w)) w).
  { rewrite Ef. destruct (Nat.min_spec n (length w)) as [[_ ->]|[L ->]]; [reflexivity|]. rewrite firstn_all2 by lia. symmetry. apply firstn_all. }
  destruct (P_RecordIO.C04_truncated_file_partial (map enc ms) Hs (Nat.min n (length w)) (Nat.le_min_r _ _)) as (k & Hk & D).
  fold w in D. rewrite <- Ef' in D. cbv zeta in D.
  assert (Em : forall j, map dec (firstn j (map enc ms)) = firstn j ms).
  { intros j. rewrite firstn_map, map_map. transitivity (map (fun m : M => m) (firstn j ms)); [|apply map_id]. apply map_ext_in. intros m Hm. apply H. rewrite <- (firstn_skipn j ms). apply in_or_app. left. exact Hm. }
  destruct D as [[En R]|[(r & _ & _ & R)|(r & _ & _ & R)]]; rewrite R in E; cbn [bind] in E; try discriminate. injection E as <-.
  exists k. rewrite Em. split; [reflexivity|]. rewrite Ef', En. unfold w. rewrite <- firstn_map.
  transitivity (firstn (length (write_records (firstn k (map enc ms)))) (write_records (firstn k (map enc ms) ++ skipn k (map enc ms)))); [rewrite firstn_skipn; reflexivity|].
  unfold write_records. rewrite flat_map_app, firstn_app, firstn_all, Nat.sub_diag. cbn [firstn]. rewrite app_nil_r. reflexivity.
Qed.
Print Assumptions C61_truncated.
(** That a file which does not hold a message is refused is false: the parser's verdict is ignored. A record that is no message at all loads as the
    private key 0, and a message damaged in its second field loads without that field. *)
Theorem C61_garbage_refuted :
  (exists d name r, d name = Some (encode_record r) /\ snd (parse_message r) = false /\ load_secret d name = Ok 0) /\
  (exists d name r g y, d name = Some (encode_record r) /\ (length r < length (to_string public_entries (g, y)))%nat /\ r = firstn (length r) (to_string public_entries (g, y)) /\
     y <> [] /\ snd (parse_message r) = false /\ read_public d name = Ok (g, [])).
Proof.
  split.
  - exists (fs_set (fun _ => None) [] (encode_record [xff])), [], [xff]. split; [reflexivity|]. split; reflexivity.
  - exists (fs_set (fun _ => None) [] (encode_record [x12; x02; x01; x02; x1a; x02; x03])), [], [x12; x02; x01; x02; x1a; x02; x03], [x01; x02], [x03; x04].
    split; [reflexivity|]. split; [cbn; lia|]. split; [reflexivity|]. split; [discriminate|]. split; reflexivity.
Qed.
Print Assumptions C61_garbage_refuted.
Example C61_ex : let m := (415, [x01; x02; x03]) in
  match write_protos _ (to_string ec_key_entries) no_fault (fun _ => None) [x61] [m; (-1, []); (0, [x00])] with
  | (d, r) => r = Ok tt /\ read_protos _ (from_string ec_key_of_entries) d [x61] = Ok [m; (-1, []); (0, [x00])] /\ read_ec_key d [x61] = Ok m /\ read_ec_key d [x62] = Err NotFound
  end.
Proof. vm_compute. repeat split. Qed.

(** ** C62: key files. *)
Section Gen.
  Variable C : ec.
  Variable L : ec_laws C.
  Variable SC : small_curve C.

  Lemma pow20_31 : 2 ^ 20 < 2 ^ 31. Proof. reflexivity. Qed.
  Definition pub_msg (raw : Z) : bytes * bytes := (ec_enc C (pgen C), ec_enc C (pmul C (generate_private_key C raw) (pgen C))).
  Lemma key_bytes raw : exists s, to_bytes (generate_private_key C raw) = Ok s /\ of_bytes s = generate_private_key C raw /\ Z.of_nat (length s) < 2 ^ 31.
  Proof.
    pose proof (private_key_range C L raw) as B. destruct (to_bytes_of (generate_private_key C raw) ltac:(lia)) as (s & E & V). exists s. split; [exact E|]. split; [exact V|].
    destruct SC as [_ (n & Hn & Ho)]. pose proof (to_bytes_length _ _ n E ltac:(lia)). pose proof pow20_31. lia.
  Qed.
  Lemma enc_len P : Z.of_nat (length (ec_enc C P)) < 2 ^ 31.
  Proof. destruct SC as [H _]. specialize (H P). pose proof pow20_31. lia. Qed.
  Lemma msg_short (m : bytes * bytes) : Z.of_nat (length (fst m)) < 2 ^ 20 -> Z.of_nat (length (snd m)) < 2 ^ 20 -> Z.of_nat (length (to_string public_entries m)) < 2 ^ 32.
  Proof.
    intros H1 H2. unfold to_string, public_entries. rewrite enc_msg_app, app_length. pose proof pow20_31.
    pose proof (f_bytes_len 2 (fst m) ltac:(lia) ltac:(lia)). pose proof (f_bytes_len 3 (snd m) ltac:(lia) ltac:(lia)). change (2 ^ 20) with 1048576 in *. change (2 ^ 32) with 4294967296. lia.
  Qed.
  Lemma secret_short (b : bytes) : Z.of_nat (length b) < 2 ^ 31 -> Z.of_nat (length (to_string secret_entries b)) < 2 ^ 32.
  Proof. intros H. unfold to_string, secret_entries. pose proof (f_bytes_len 1 b ltac:(lia) H). change (2 ^ 31) with 2147483648 in *. change (2 ^ 32) with 4294967296. lia. Qed.

  (** One successful call. *)
  Lemma generate_ok fl1 fl2 d raw pn sn d' : pn <> sn -> generate_elgamal_key_pair C fl1 fl2 d raw pn sn = (d', Ok tt) ->
    load_public C d' pn = Ok (fst (eg_generate C raw)) /\ load_secret d' sn = Ok (generate_private_key C raw) /\ forall n, n <> pn -> n <> sn -> d' n = d n.
  Proof.
    intros N E. unfold generate_elgamal_key_pair in E. unfold eg_generate in *. cbn [fst].
    pose proof (private_key_range C L raw) as B.
    assert (Ny : pmul C (generate_private_key C raw) (pgen C) <> pinf C) by (apply (pmul_not_inf C L); [apply (gen_not_inf C L)|rewrite Z.mod_small; lia]).
    unfold eg_public_to_proto in E. cbn [eg_g eg_y] in E. rewrite !(point_mul_eq C L) in *. rewrite (point_to_bytes_ok C L _ (gen_not_inf C L)), (point_to_bytes_ok C L _ Ny) in E.
    unfold eg_private_to_proto in E. destruct (key_bytes raw) as (s & Es & Vs & Ls). rewrite Es in E. cbn [bind] in E.
    destruct (write_public fl1 d pn _) as [d1 r1] eqn:W1. destruct r1 as [[]| | | |]; try (injection E as _ E; discriminate).
    unfold write_public, write_proto in W1. unfold write_secret, write_proto in E.
    pose proof (fun H => C61_file_roundtrip _ _ (from_string public_of_entries) fl1 d pn _ d1 H W1) as R1.
    destruct R1 as (O1 & _ & R1). { intros m [<-|[]]. split; [apply public_message; apply enc_len|]. apply msg_short; apply SC. }
    pose proof (fun H => C61_file_roundtrip _ _ (from_string secret_of_entries) fl2 d1 sn _ d' H E) as R2.
    destruct R2 as (O2 & _ & R2). { intros m [<-|[]]. split; [apply secret_message, Ls|]. apply secret_short, Ls. }
    split; [|split].
    - unfold load_public, read_public, read_proto in *. rewrite (O2 pn N). rewrite R1. cbn [bind]. unfold eg_public_of_proto. cbn [fst snd].
      rewrite (point_of_bytes_enc C L _ (gen_not_inf C L)), (point_of_bytes_enc C L _ Ny). reflexivity.
    - unfold load_secret, read_secret. rewrite R2. cbn [bind]. unfold eg_private_of_proto. rewrite Vs. reflexivity.
    - intros n N1 N2. rewrite (O2 n N2). apply O1, N1.
  Qed.

  Lemma load_ext d d' n : d' n = d n -> load_secret d' n = load_secret d n /\ load_public C d' n = load_public C d n.
  Proof. intros E. unfold load_secret, load_public, read_secret, read_public, read_proto. rewrite E. split; reflexivity. Qed.

  Definition names (hs : list holder) : list bytes := map h_pub hs ++ map h_prv hs.
  Lemma generate_all_ok hs : forall d d', NoDup (names hs) -> generate_all C d hs = (d', Ok tt) ->
    (forall h, In h hs -> load_public C d' (h_pub h) = Ok (fst (eg_generate C (h_raw h))) /\ load_secret d' (h_prv h) = Ok (generate_private_key C (h_raw h))) /\
    forall n, ~ In n (names hs) -> d' n = d n.
  Proof.
    induction hs as [|h hs IH]; intros d d' N E; [injection E as <-; split; [intros h []|reflexivity]|].
    cbn [generate_all] in E. destruct (generate_elgamal_key_pair C _ _ d _ _ _) as [d1 r1] eqn:G. destruct r1 as [[]| | | |]; try (injection E as _ E; discriminate).
    assert (Np : Permutation (names (h :: hs)) (h_pub h :: h_prv h :: names hs)).
    { unfold names. cbn [map app]. constructor. symmetry. apply Permutation_middle. }
    pose proof (Permutation_NoDup Np N) as N'. inversion N' as [|? ? Ni1 N2]. inversion N2 as [|? ? Ni2 N3]. subst.
    destruct (generate_ok _ _ _ _ _ _ _ (fun e => Ni1 (or_introl (eq_sym e))) G) as (P1 & S1 & O1). destruct (IH d1 d' N3 E) as [I1 I2]. split.
    - intros k [<-|Hk]; [|apply I1, Hk]. pose proof (I2 (h_pub h) (fun i => Ni1 (or_intror i))) as Q1. pose proof (I2 (h_prv h) Ni2) as Q2.
      rewrite (proj2 (load_ext _ _ _ Q1)), (proj1 (load_ext _ _ _ Q2)). split; assumption.
    - intros n Hn. rewrite I2.
      + apply O1; intros ->; apply Hn; apply (Permutation_in _ (Permutation_sym Np)); [left|right; left]; reflexivity.
      + intros i. apply Hn. apply (Permutation_in _ (Permutation_sym Np)). right. right. exact i.
  Qed.
End Gen.

Lemma mapM_load {A B D} (f : B -> outcome D) (g : A -> B) (v : A -> D) l : (forall x, In x l -> f (g x) = Ok (v x)) -> mapM f (map g l) = Ok (map v l).
Proof.
  induction l as [|x l IH]; intros H; [reflexivity|]. cbn [map mapM]. rewrite (H x (or_introl eq_refl)). cbn [bind]. rewrite IH by (intros y Hy; apply H; right; exact Hy). reflexivity.
Qed.

(** Every holder generates a key pair into files; anyone combines the public files.  Then the joint key file and the private key files work together:
    whatever is computed under the joint key is decrypted by all private keys, in any order.  The combination fails, leaving all files alone, exactly
    when the private keys happen to sum to zero (or its own file cannot be written). *)
Theorem C62_joint_key_files : forall C hs d d1 fl joint d2 r, ec_laws C -> small_curve C ->
  hs <> [] -> NoDup (map h_pub hs ++ map h_prv hs) -> ~ In joint (map h_prv hs) ->
  generate_all C d hs = (d1, Ok tt) -> compute_joint_key C fl d1 (map h_pub hs) joint = (d2, r) ->
  only_changed d1 d2 joint /\
  exists xs, mapM (load_secret d2) (map h_prv hs) = Ok xs /\ (forall x, In x xs -> 0 < x < ec_order C) /\
    (zsum_list xs mod ec_order C = 0 -> r = Err Internal /\ d2 = d1) /\
    (zsum_list xs mod ec_order C <> 0 -> fl = no_fault -> r = Ok tt) /\
    (r = Ok tt -> exists pk, load_public C d2 joint = Ok pk /\
       forall (e : expr C) order, Permutation order xs -> eg_e C (partial_all C order (run pk e)) = plain e).
Proof.
  intros C hs d d1 fl joint d2 r L SC Hne N Nj G E. destruct (generate_all_ok C L SC hs d d1 N G) as [Gl _].
  set (xs := map (fun h => generate_private_key C (h_raw h)) hs).
  assert (Es : load_shares C d1 (map h_pub hs) = Ok (map (fun h => fst (eg_generate C (h_raw h))) hs)) by (apply mapM_load; intros h Hh; apply Gl, Hh).
  unfold compute_joint_key in E. destruct (map h_pub hs) as [|n0 ns] eqn:En; [destruct hs; [contradiction|discriminate]|]. rewrite Es in E. cbn [bind] in E.
  assert (Esh : map (fun h => fst (eg_generate C (h_raw h))) hs = map (fun x => {| eg_g := pgen C; eg_y := pmul C x (pgen C) |}) xs).
  { unfold xs. rewrite map_map. apply map_ext. intros h. unfold eg_generate. cbn [fst]. rewrite (point_mul_eq C L). reflexivity. }
  assert (Ec : eg_combine C (map (fun h => fst (eg_generate C (h_raw h))) hs) = Ok {| eg_g := pgen C; eg_y := pmul C (zsum_list xs) (pgen C) |}).
  { rewrite Esh. unfold xs. destruct hs as [|h hs']; [contradiction|]. cbn [map eg_combine eg_g eg_y]. rewrite (shares_loop_ok C L). cbn [bind zsum_list fold_right]. rewrite (pmul_add C L). reflexivity. }
  rewrite Ec in E. cbn [bind] in E. unfold eg_public_to_proto in E. cbn [eg_g eg_y] in E. rewrite (point_to_bytes_ok C L _ (gen_not_inf C L)) in E. cbn [bind] in E.
  assert (Hx : forall x, In x xs -> 0 < x < ec_order C) by (intros x Hx; unfold xs in Hx; apply in_map_iff in Hx; destruct Hx as (h & <- & _); apply (private_key_range C L)).
  assert (Ls : forall d', only_changed d1 d' joint -> mapM (load_secret d') (map h_prv hs) = Ok xs).
  { intros d' O1. apply mapM_load. intros h Hh. rewrite (proj1 (load_ext C _ _ _ (O1 (h_prv h) (fun e => Nj (eq_ind _ (fun n => In n (map h_prv hs)) (in_map h_prv hs h Hh) _ e))))). apply Gl, Hh. }
  destruct (Z.eq_dec (zsum_list xs mod ec_order C) 0) as [Z0|NZ].
  - assert (Ey : pmul C (zsum_list xs) (pgen C) = pinf C) by (rewrite <- (pmul_mod C L), Z0; reflexivity). rewrite Ey in E. unfold point_to_bytes in E. rewrite (proj2 (is_inf_true C L _) eq_refl) in E.
    cbn [bind] in E. injection E as <- <-. split; [intros n _; reflexivity|]. exists xs. split; [apply Ls; intros n _; reflexivity|]. split; [exact Hx|]. split; [intros _; split; reflexivity|].
    split; [intros K; contradiction|]. discriminate.
  - assert (Ny : pmul C (zsum_list xs) (pgen C) <> pinf C) by (apply (pmul_not_inf C L); [apply (gen_not_inf C L)|exact NZ]). rewrite (point_to_bytes_ok C L _ Ny) in E. cbn [bind] in E.
    unfold write_public, write_proto in E. pose proof (C61_write_reports _ _ _ _ _ _ _ _ E) as (O1 & _ & Rf). split; [exact O1|]. exists xs. split; [apply Ls, O1|]. split; [exact Hx|].
    split; [intros K; contradiction|]. split; [intros _; exact Rf|]. intros ->.
    pose proof (fun H => C61_file_roundtrip _ _ (from_string public_of_entries) _ _ _ _ _ H E) as R1.
    destruct R1 as (_ & _ & R1). { intros m [<-|[]]. split; [apply public_message; apply (enc_len C SC)|]. apply msg_short; apply SC. }
    exists {| eg_g := pgen C; eg_y := pmul C (zsum_list xs) (pgen C) |}. split.
    + unfold load_public, read_public. rewrite R1. cbn [bind]. unfold eg_public_of_proto. cbn [fst snd]. rewrite (point_of_bytes_enc C L _ (gen_not_inf C L)), (point_of_bytes_enc C L _ Ny). reflexivity.
    + intros e order Hp. pose proof (encrypts_run C L (zsum_list xs) (pgen C) e) as Q. set (c := run _ e) in *. rewrite <- (zsum_perm _ _ Hp) in Q.
      apply (encrypts_0 C L). apply (partial_all_spec C L order c 0). rewrite Z.add_0_r. exact Q.
Qed.
Print Assumptions C62_joint_key_files.
(** Without faults every holder's key generation succeeds. *)
Theorem C62_generation_succeeds : forall C d raw pub prv, ec_laws C -> small_curve C -> pub <> prv ->
  exists d', generate_elgamal_key_pair C no_fault no_fault d raw pub prv = (d', Ok tt) /\
    load_public C d' pub = Ok (fst (eg_generate C raw)) /\ load_secret d' prv = Ok (snd (eg_generate C raw)) /\ forall n, n <> pub -> n <> prv -> d' n = d n.
Proof.
  intros C d raw pub prv L SC N. assert (exists d', generate_elgamal_key_pair C no_fault no_fault d raw pub prv = (d', Ok tt)) as (d' & E).
  { unfold generate_elgamal_key_pair, eg_generate, eg_public_to_proto. cbn [eg_g eg_y]. pose proof (private_key_range C L raw) as B.
    assert (Ny : pmul C (generate_private_key C raw) (pgen C) <> pinf C) by (apply (pmul_not_inf C L); [apply (gen_not_inf C L)|rewrite Z.mod_small; lia]).
    rewrite (point_mul_eq C L), (point_to_bytes_ok C L _ (gen_not_inf C L)), (point_to_bytes_ok C L _ Ny). unfold eg_private_to_proto. destruct (key_bytes C L SC raw) as (s & -> & _). eexists. reflexivity. }
  exists d'. split; [exact E|]. exact (generate_ok C L SC _ _ _ _ _ _ _ N E).
Qed.
Print Assumptions C62_generation_succeeds.
(** A failed generation is not atomic: if the private key cannot be written, the public key file has already been replaced. *)
Theorem C62_public_file_replaced : forall C d raw pub prv fl2, ec_laws C -> small_curve C -> pub <> prv -> fl_open fl2 = true ->
  exists d', generate_elgamal_key_pair C no_fault fl2 d raw pub prv = (d', Err NotFound) /\ d' prv = d prv /\ load_public C d' pub = Ok (fst (eg_generate C raw)).
Proof.
  intros C d raw pub prv fl2 L SC N F. destruct (C62_generation_succeeds C d raw pub prv L SC N) as (d2 & E2 & P2 & _ & _).
  unfold generate_elgamal_key_pair in *. destruct (eg_generate C raw) as [pk x]. destruct (let* p := eg_public_to_proto C pk in let* s := eg_private_to_proto x in Ok (p, s)) as [[p s]| | | |]; try discriminate.
  destruct (write_public no_fault d pub p) as [d1 r1] eqn:W. pose proof (C61_write_reports _ _ _ _ _ _ _ _ W) as (O1 & _ & R1). rewrite (R1 eq_refl) in *.
  unfold write_secret, write_proto in *. pose proof (C61_write_reports _ _ _ _ _ _ _ _ E2) as (O2 & _ & _). exists d1. split; [unfold write_protos; rewrite F; reflexivity|].
  split; [apply O1; congruence|]. rewrite <- P2. symmetry. apply (load_ext C _ _ _ (O2 pub N)).
Qed.
Print Assumptions C62_public_file_replaced.
(** Share files are not trusted equally: two loadable shares with different generators end the process. *)
Theorem C62_mixed_generators_abort : forall C fl d files joint shares s t, ec_laws C -> mapM (load_public C d) files = Ok shares ->
  In s shares -> In t shares -> eg_g C s <> eg_g C t -> compute_joint_key C fl d files joint = (d, Crash).
Proof.
  intros C fl d files joint shares s t L E Hs Ht N. unfold compute_joint_key. destruct files as [|f fs]; [injection E as <-; destruct Hs|].
  change (load_shares C d (f :: fs)) with (mapM (load_public C d) (f :: fs)). rewrite E. cbn [bind].
  destruct (P_ElGamal.C36_combine_requires C shares L) as [[-> _]|[(_ & _ & ->)|(_ & Q & _)]]; [destruct Hs|reflexivity|]. destruct (N (Q s t Hs Ht)).
Qed.
Print Assumptions C62_mixed_generators_abort.
Theorem C62_no_files : forall C fl d joint, compute_joint_key C fl d [] joint = (d, Err InvalidArgument).
Proof. reflexivity. Qed.
(** A missing or unreadable share file is an error, and nothing is written. *)
Theorem C62_unreadable_share : forall C fl d files joint f c, ec_laws C -> In f files -> load_public C d f = Err c -> 
  exists o, compute_joint_key C fl d files joint = (d, o) /\ o <> Ok tt.
Proof.
  intros C fl d files joint f c L Hf E. unfold compute_joint_key. destruct files as [|f0 fs]; [destruct Hf|]. change (load_shares C d (f0 :: fs)) with (mapM (load_public C d) (f0 :: fs)).
  assert (H : forall l, In f l -> forall v, mapM (load_public C d) l <> Ok v).
  { induction l as [|a l IH]; intros Hi v; [destruct Hi|]. cbn [mapM]. destruct Hi as [->|Hi]; [rewrite E; discriminate|]. destruct (load_public C d a); try discriminate. cbn [bind].
    destruct (mapM (load_public C d) l) eqn:Em; try discriminate. destruct (IH Hi _ eq_refl). }
  specialize (H _ Hf). destruct (mapM (load_public C d) (f0 :: fs)) as [v| | | |]; cbn [bind]; [destruct (H v eq_refl)| | | |]; eexists; split; try reflexivity; discriminate.
Qed.
Print Assumptions C62_unreadable_share.
(** util/ec_key_util.cc: a key written to a file is read back, for its own curve only. *)
Theorem C62_ec_key_file : forall C fl d id raw name d', ec_laws C -> small_curve C -> - 2 ^ 31 <= id < 2 ^ 31 -> generate_ec_key C fl d id raw name = (d', Ok tt) ->
  only_changed d d' name /\ exists p, read_ec_key d' name = Ok p /\
    forall id', deserialize_ec_key id' p = (if id' =? id then Ok (generate_private_key C raw) else Err InvalidArgument).
Proof.
  intros C fl d id raw name d' L SC Hid E. unfold generate_ec_key, ec_key_proto in E. destruct (key_bytes C L SC raw) as (s & Es & Vs & Ls). rewrite Es in E. cbn [bind] in E.
  unfold write_ec_key, write_proto in E.
  pose proof (fun H => C61_file_roundtrip _ _ (from_string ec_key_of_entries) fl d name _ d' H E) as R. destruct R as (O1 & _ & R).
  { intros m [<-|[]]. split; [apply ec_key_message; assumption|]. unfold to_string, ec_key_entries. cbn [fst snd]. rewrite enc_msg_app, app_length. pose proof (f_bytes_len 2 s ltac:(lia) Ls).
    assert (length (enc_msg (f_int64 1 id)) <= 11)%nat.
    { unfold f_int64. destruct (id =? 0); [cbn; lia|]. change (enc_msg [EVarint 1 (id mod 2 ^ 64)]) with (varint 8 ++ varint (id mod 2 ^ 64) ++ []). rewrite !app_length.
      pose proof (varint_len (id mod 2 ^ 64) 10) as Q. pose proof (Z.mod_pos_bound id (2 ^ 64) ltac:(reflexivity)). assert (2 ^ 64 < 128 ^ Z.of_nat 10) by reflexivity. specialize (Q ltac:(lia)). change (length (varint 8)) with 1%nat. cbn [length]. lia. }
    change (2 ^ 31) with 2147483648 in *. change (2 ^ 32) with 4294967296. lia. }
  split; [exact O1|]. eexists. split; [exact R|]. intros id'. unfold deserialize_ec_key. cbn [fst snd]. rewrite Vs. destruct (id' =? id); reflexivity.
Qed.
Print Assumptions C62_ec_key_file.
(** Three holders on the toy curve. *)
Lemma toy_small : small_curve toy.
Proof.
  split; [|exists 1; split; [split; [discriminate|reflexivity]|reflexivity]]. intros P. cbn [ec_enc toy]. unfold raw_enc. destruct (proj1_sig P) as [[x y]|]; reflexivity.
Qed.
Definition ex_holders : list holder :=
  [{| h_raw := 3; h_pub := [x61]; h_prv := [x41]; h_f1 := no_fault; h_f2 := no_fault |};
   {| h_raw := 17; h_pub := [x62]; h_prv := [x42]; h_f1 := no_fault; h_f2 := no_fault |};
   {| h_raw := 70; h_pub := [x63]; h_prv := [x43]; h_f1 := no_fault; h_f2 := no_fault |}].
Example C62_ex : match generate_all toy (fun _ => None) ex_holders with
  | (d1, r1) => r1 = Ok tt /\ match compute_joint_key toy no_fault d1 (map h_pub ex_holders) [x6a] with
    | (d2, r2) => r2 = Ok tt /\ mapM (load_secret d2) (map h_prv ex_holders) = Ok [4; 18; 71] /\ is_ok (load_public toy d2 [x6a]) = true end end.
Proof. vm_compute. repeat split. Qed.
(** Keys that sum to zero. *)
Example C62_zero_sum_ex : match generate_all toy (fun _ => None) (map (fun n => {| h_raw := fst n; h_pub := [snd n]; h_prv := [snd n; snd n]; h_f1 := no_fault; h_f2 := no_fault |}) [(3, x61); (74, x62)]) with
  | (d1, r1) => r1 = Ok tt /\ snd (compute_joint_key toy no_fault d1 [[x61]; [x62]] [x6a]) = Err Internal end.
Proof. vm_compute. split; reflexivity. Qed.
