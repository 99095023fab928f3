(** Specification of simultaneous exponentiation. *)
From Verif Require Import Base.

(** prod b_i ^ e_i over the integers. *)
Fixpoint multi_exp (bs es : list Z) : Z :=
  match bs, es with
  | b :: bs', e :: es' => b ^ e * multi_exp bs' es'
  | _, _ => 1
  end.
