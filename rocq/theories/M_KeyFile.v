(** Models util/proto_util.h (messages in record files) and the file-level functions of util/elgamal_key_util.cc and util/ec_key_util.cc. *)
From Verif Require Import Base M_BigNum M_RecordIO M_Shard M_EC M_ElGamal M_Wire.

(** ** Parsing the protobuf wire format (external library, as far as the messages below need it).
    A varint of at most [n] bytes at the front of the input. *)
Fixpoint get_varint (n : nat) (f : bytes) : option (Z * bytes) :=
  match n, f with
  | S k, b :: f' =>
      if bz b <? 128 then Some (bz b, f')
      else match get_varint k f' with Some (v, r) => Some (bz b - 128 + 128 * v, r) | None => None end
  | _, _ => None
  end.
(** A payload of n bytes. *)
Definition get_bytes (n : Z) (f : bytes) : option (bytes * bytes) :=
  if Z.of_nat (length f) <? n then None else Some (firstn (Z.to_nat n) f, skipn (Z.to_nat n) f).
(** One field: tag, then a payload by wire type. Field number 0 is illegal. Fixed-width fields (wire types 1 and 5), which none of the messages
    has, are skipped. Simplification: groups (wire types 3 and 4, gone since proto3) are refused. *)
Definition get_field (f : bytes) : option (option entry * bytes) :=
  match get_varint 5 f with
  | None => None
  | Some (t, f1) =>
      let tag := t mod 2 ^ 32 in
      let k := tag / 8 in
      if k =? 0 then None
      else match tag mod 8 with
           | 0 => match get_varint 10 f1 with Some (v, r) => Some (Some (EVarint k (v mod 2 ^ 64)), r) | None => None end
           | 1 => match get_bytes 8 f1 with Some (_, r) => Some (None, r) | None => None end
           | 2 => match get_varint 5 f1 with
                  | Some (n, f2) => match get_bytes n f2 with Some (b, r) => Some (Some (ELen k b), r) | None => None end
                  | None => None
                  end
           | 5 => match get_bytes 4 f1 with Some (_, r) => Some (None, r) | None => None end
           | _ => None
           end
  end.
(** The fields parsed before the end of the input or the first error, and whether there was no error. *)
Fixpoint get_fields (fuel : nat) (f : bytes) : list entry * bool :=
  match fuel, f with
  | _, [] => ([], true)
  | O, _ => ([], false)
  | S k, _ =>
      match get_field f with
      | None => ([], false)
      | Some (e, r) => let '(es, ok) := get_fields k r in (match e with Some e => e :: es | None => es end, ok)
      end
  end.
(** ParseFromArray: every field takes at least one byte, so this fuel is enough. *)
Definition parse_message (f : bytes) : list entry * bool := get_fields (length f) f.

(** Singular fields: the last occurrence counts, a missing field has its default value, a known number with another wire type is unknown. *)
Definition get_f_bytes (k : Z) (es : list entry) : bytes :=
  fold_left (fun a e => match e with ELen k' b => if k' =? k then b else a | _ => a end) es [].
(** An int32 field keeps the low 32 bits of its varint. *)
Definition get_f_int32 (k : Z) (es : list entry) : Z :=
  fold_left (fun a e => match e with EVarint k' v => if k' =? k then wrap32 v else a | _ => a end) es 0.

(** ** The messages. elgamal.proto 45-49 ElGamalPublicKey: p is not used with elliptic curves, g = 2, y = 3. *)
Definition public_entries (m : bytes * bytes) : list entry := f_bytes 2 (fst m) ++ f_bytes 3 (snd m).
Definition public_of_entries (es : list entry) : bytes * bytes := (get_f_bytes 2 es, get_f_bytes 3 es).
(** elgamal.proto 68-70 ElGamalSecretKey. *)
Definition secret_entries (x : bytes) : list entry := f_bytes 1 x.
Definition secret_of_entries (es : list entry) : bytes := get_f_bytes 1 es.
(** ec_key.proto 26-30 EcKeyProto: int32 curve_id = 1, key = 2. A negative int32 is written as its 64-bit two's complement. *)
Definition ec_key_entries (m : Z * bytes) : list entry := f_int64 1 (fst m) ++ f_bytes 2 (snd m).
Definition ec_key_of_entries (es : list entry) : Z * bytes := (get_f_int32 1 es, get_f_bytes 2 es).

(** proto_util.h 61-65 ToString; 54-59 FromString, which ignores the result of ParseFromArray: whatever was parsed before the error is
    the message.  Sizes of 2^31 bytes and more, which protobuf refuses, are not modelled. *)
Definition to_string {M} (entries : M -> list entry) (m : M) : bytes := enc_msg (entries m).
Definition from_string {M} (of_entries : list entry -> M) (s : bytes) : M := of_entries (fst (parse_message s)).

Section Files.
  Variable M : Type.
  Variable enc : M -> bytes.     (* ToString *)
  Variable dec : bytes -> M.     (* FromString *)

  (** proto_util.h 67-77 ReadProtoFromFile. *)
  Definition read_proto (d : fs) (name : bytes) : outcome M :=
    match d name with
    | None => Err NotFound
    | Some f => let* (r, _) := read_record f in Ok (dec r)
    end.
  (** proto_util.h 79-95 ReadProtosFromFile. *)
  Definition read_protos (d : fs) (name : bytes) : outcome (list M) :=
    match d name with
    | None => Err NotFound
    | Some f => let '(rs, e) := read_records f in let* _ := e in Ok (map dec rs)
    end.
  (** proto_util.h 105-113 WriteRecordsToFile. The faults are those of M_Shard: fopen fails; the i-th Write fails and leaves content c; fclose
      fails and leaves content c. When a Write fails the writer's destructor closes the file. *)
  Definition write_protos (fl : fault) (d : fs) (name : bytes) (ms : list M) : fs * outcome unit :=
    if fl_open fl then (d, Err NotFound)
    else match fl_write fl with
         | Some (i, c) =>
             if (i <? length ms)%nat then (fs_set d name c, Err Internal)
             else match fl_close fl with
                  | Some c' => (fs_set d name c', Err Internal)
                  | None => (fs_set d name (write_records (map enc ms)), Ok tt)
                  end
         | None => match fl_close fl with
                   | Some c' => (fs_set d name c', Err Internal)
                   | None => (fs_set d name (write_records (map enc ms)), Ok tt)
                   end
         end.
  (** proto_util.h 97-103 WriteProtoToFile. Simplification: that WriteProtoToFile and WriteRecordsToFile then destroy a writer whose fclose
      failed (a second fclose of the stream) is not part of their outcome; see C08. *)
  Definition write_proto (fl : fault) (d : fs) (name : bytes) (m : M) : fs * outcome unit := write_protos fl d name [m].
End Files.

Section Keys.
  Variable C : ec.

  Definition write_public := write_proto (bytes * bytes) (to_string public_entries).
  Definition read_public := read_proto (bytes * bytes) (from_string public_of_entries).
  Definition write_secret := write_proto bytes (to_string secret_entries).
  Definition read_secret := read_proto bytes (from_string secret_of_entries).
  Definition write_ec_key := write_proto (Z * bytes) (to_string ec_key_entries).
  Definition read_ec_key := read_proto (Z * bytes) (from_string ec_key_of_entries).

  (** elgamal_key_util.cc 37-54 GenerateElGamalKeyPair, for a curve identifier that ECGroup::Create accepts; [raw] is the entropy drawn.
      Returns the file system and the status. *)
  Definition generate_elgamal_key_pair (fl1 fl2 : fault) (d : fs) (raw : Z) (pub_name prv_name : bytes) : fs * outcome unit :=
    let (pk, x) := eg_generate C raw in
    match (let* p := eg_public_to_proto C pk in let* s := eg_private_to_proto x in Ok (p, s)) with
    | Ok (p, s) =>
        let (d1, r1) := write_public fl1 d pub_name p in
        match r1 with
        | Ok _ => write_secret fl2 d1 prv_name s
        | e => (d1, e)
        end
    | Err c => (d, Err c)
    | Crash => (d, Crash)
    | UB => (d, UB)
    | Diverge => (d, Diverge)
    end.

  (** elgamal_key_util.cc 66-75: the loop over the share files. *)
  Definition load_shares (d : fs) (names : list bytes) : outcome (list (eg_public C)) :=
    mapM (fun n => let* p := read_public d n in eg_public_of_proto C p) names.
  (** elgamal_key_util.cc 56-85 ComputeJointElGamalPublicKey. *)
  Definition compute_joint_key (fl : fault) (d : fs) (names : list bytes) (joint_name : bytes) : fs * outcome unit :=
    match names with
    | [] => (d, Err InvalidArgument)
    | _ =>
        match (let* shares := load_shares d names in let* k := eg_combine C shares in eg_public_to_proto C k) with
        | Ok p => write_public fl d joint_name p
        | Err c => (d, Err c)
        | Crash => (d, Crash)
        | UB => (d, UB)
        | Diverge => (d, Diverge)
        end
    end.

  (** ec_key_util.cc 25-34 GenerateEcKey. *)
  Definition generate_ec_key (fl : fault) (d : fs) (curve_id raw : Z) (name : bytes) : fs * outcome unit :=
    match ec_key_proto C curve_id raw with
    | Ok p => write_ec_key fl d name p
    | Err c => (d, Err c)
    | Crash => (d, Crash)
    | UB => (d, UB)
    | Diverge => (d, Diverge)
    end.
End Keys.
