(** Models crypto/proto/proto_util.cc: vectors of numbers and points as proto messages. A proto message is modelled as the record of its
    fields; the protobuf wire format itself is external. *)
From Verif Require Import Base M_BigNum M_EC.

(** proto_util.cc 31-41 BigNumVectorToProto. *)
Definition bignum_vector_to_proto (xs : list Z) : outcome (list bytes) := mapM to_bytes xs.
(** proto_util.cc 43-51 ParseBigNumVectorProto. *)
Definition parse_bignum_vector (p : list bytes) : list Z := map of_bytes p.

(** proto_util.cc 54-65 ECPointVectorToProto. *)
Definition point_vector_to_proto (C : ec) (ps : list (pt C)) : outcome (list bytes) := mapM (point_to_bytes C) ps.
(** proto_util.cc 68-79 ParseECPointVectorProto. *)
Definition parse_point_vector (C : ec) (p : list bytes) : outcome (list (pt C)) := mapM (point_of_bytes C) p.
