(** Specification of the Python BigNum objects: what each call should return, and which objects it may change. *)
From Verif Require Import Base M_PyNum.
From Coq Require Import Znumtheory.

Section Spec.
Variable mod_sqrt : Z -> Z -> option Z.
(** The result of a function on numbers. *)
Definition arith (f : func) (args : list Z) (v : Z) : Prop :=
  match f, args with
  | FAdd, [a; b] => v = a + b
  | FSub, [a; b] => v = a - b
  | FMul, [a; b] => v = a * b
  | FMod, [a; m] => 0 <= v < Z.abs m /\ (m | a - v)
  | FPow, [a; e] => v = a ^ Z.abs e
  | FModMul, [a; b; m] => 0 <= v < Z.abs m /\ (m | a * b - v)
  | FModExp, [a; e; m] => 0 <= e /\ 0 <= v < m /\ (m | a ^ e - v)
  | FGcd, [a; b] => 0 <= v /\ Zis_gcd a b v
  | FModInverse, [a; m] => 0 <= v < m /\ (m | a * v - 1)
  | FModSqrt, [a; m] => mod_sqrt a m = Some v
  | _, _ => False
  end.
(** When a function has a result. *)
Definition defined (f : func) (args : list Z) : Prop :=
  match f, args with
  | FAdd, [_; _] | FSub, [_; _] | FMul, [_; _] | FPow, [_; _] | FGcd, [_; _] => True
  | FMod, [_; m] | FModMul, [_; _; m] => m <> 0
  | FModExp, [_; e; m] => 0 <= e /\ 0 < m
  | FModInverse, [a; m] => 0 < m /\ Z.gcd a m = 1
  | FModSqrt, [a; m] => mod_sqrt a m <> None
  | _, _ => False
  end.
(** When a call should succeed, in any world. *)
Definition succeeds (w : world) (c : call) : Prop :=
  match c with
  | CLong n | CCacheGet n => 0 <= n
  | CRand _ a => exists b, value w a = Some b /\ 0 < b
  | CRandWithStart _ a start => exists b s, value w a = Some b /\ value w start = Some s /\ s < b
  | CCompute f args => exists l, values w args = Some l /\ defined f l
  | CInPlace f _ self args => exists l, values w (self :: args) = Some l /\ defined f l /\ option_map o_immutable (nth_error (w_objs w) self) = Some false
  | CShift _ a n | CShiftInPlace _ a n => exists x, value w a = Some x /\ 0 <= n
  | CDivide a b => exists x y, value w a = Some x /\ value w b = Some y /\ y <> 0 /\ (y | x)
  | CClone a | CMutable a | CAddOne a | CSubtractOne a => exists x, value w a = Some x
  | CModNegate a m => exists x n, value w a = Some x /\ value w m = Some n /\ n <> 0
  | CPrime _ | CZero | COne | CTwo | CNewCache _ => True
  end.
(** The exception with which a call should fail: a ValueError or OpenSSL's failed assertion. *)
Definition raises (w : world) (c : call) : code :=
  match c with
  | CLong _ | CCacheGet _ => InvalidArgument
  | CCompute FModInverse _ => InvalidArgument
  | CInPlace _ _ self _ => match nth_error (w_objs w) self with Some o => if o_immutable o then InvalidArgument else Internal | None => Internal end
  | CDivide _ b => match value w b with Some 0 => Internal | _ => InvalidArgument end
  | _ => Internal
  end.
(** The number that a call should return, in terms of the numbers its arguments hold. *)
Definition returns (w : world) (c : call) (v : Z) : Prop :=
  match c with
  | CLong n => v = n
  | CPrime p => v = p
  | CRand _ a => exists b, value w a = Some b /\ 0 <= v < b
  | CRandWithStart _ a start => exists b s, value w a = Some b /\ value w start = Some s /\ s <= v < b
  | CZero => v = 0
  | COne => v = 1
  | CTwo => v = 2
  | CClone a | CMutable a => value w a = Some v
  | CCompute f args => exists l, values w args = Some l /\ arith f l v
  | CInPlace f _ self args => exists l, values w (self :: args) = Some l /\ arith f l v
  | CShift true a n | CShiftInPlace true a n => exists x, value w a = Some x /\ 0 <= n /\ v = x * 2 ^ n
  | CShift false a n | CShiftInPlace false a n => exists x, value w a = Some x /\ 0 <= n /\ v = Z.quot x (2 ^ n)
  | CDivide a b => exists x y, value w a = Some x /\ value w b = Some y /\ y <> 0 /\ x = y * v
  | CAddOne a => exists x, value w a = Some x /\ v = x + 1
  | CSubtractOne a => exists x, value w a = Some x /\ v = x - 1
  | CModNegate a m => exists x n, value w a = Some x /\ value w m = Some n /\ (n | x + v) /\ (0 < n -> 0 < v <= n)
  | CNewCache _ => True
  | CCacheGet n => v = n
  end.
End Spec.

(** The objects that everybody shares: the constants and the cached numbers. *)
Definition shared (w : world) (r : ref) : Prop :=
  w_zero w = Some r \/ w_one w = Some r \/ w_two w = Some r \/ In r (map snd (w_cache w)).
(** A call that makes a shared object mutable or shifts it in place. *)
Definition spoils (w : world) (c : call) : Prop :=
  match c with CMutable r | CShiftInPlace _ r _ => shared w r | _ => False end.
(** Histories without such a call. *)
Fixpoint respectful (mod_sqrt : Z -> Z -> option Z) (w : world) (l : list call) : Prop :=
  match l with [] => True | c :: rest => ~ spoils w c /\ respectful mod_sqrt (fst (step mod_sqrt w c)) rest end.
(** The object a call is meant to change. *)
Definition target (c : call) : option ref :=
  match c with CInPlace _ _ r _ | CShiftInPlace _ r _ | CMutable r => Some r | _ => None end.
(** Which objects a call is about. *)
Definition args_of (c : call) : list ref :=
  match c with
  | CRand _ a | CClone a | CMutable a | CShift _ a _ | CShiftInPlace _ a _ | CAddOne a | CSubtractOne a => [a]
  | CRandWithStart _ a b | CDivide a b | CModNegate a b => [a; b]
  | CCompute _ l => l
  | CInPlace _ _ s l => s :: l
  | _ => []
  end.
