(** Models the BigNum objects of py/crypto_util/ssl_util.py 678-1097: references to numbers held by OpenSSL, with the shared constants and the
    cache of small numbers. ValueError is [Err InvalidArgument]; the AssertionError with which SSLProxy answers a failed OpenSSL call is
    [Err Internal]. *)
From Verif Require Import Base M_BigNum M_EC M_Python.

(** ssl_util.py 688-693: the OpenSSL number behind the pointer, and the flag. Every BigNum has a number of its own. *)
Record obj := { o_value : Z; o_immutable : bool }.
(** A reference is the position in the list of objects created so far. *)
Definition ref := nat.
Bind Scope nat_scope with ref.
(** The objects, the class attributes _ZERO, _ONE and _TWO (684-686), and the singleton cache (1072-1081) with its bound. *)
Record world := { w_objs : list obj; w_zero : option ref; w_one : option ref; w_two : option ref; w_cache : list (Z * ref); w_max : Z }.
Definition world_init : world := {| w_objs := []; w_zero := None; w_one := None; w_two := None; w_cache := []; w_max := 0 |}.

(** The OpenSSL functions that _ComputeResult and _ComputeResultInPlace are used with, and the number of arguments after self. *)
Inductive func := FAdd | FSub | FMul | FMod | FPow | FModMul | FModExp | FGcd | FModInverse | FModSqrt.

Section Num.
(** BN_mod_sqrt: None when there is no root. *)
Variable mod_sqrt : Z -> Z -> option Z.

(** BN_add, BN_sub, BN_mul, BN_nnmod, BN_exp (magnitude of the exponent), BN_mod_mul, BN_mod_exp, BN_gcd, BN_mod_inverse, BN_mod_sqrt; None is
    failure, which includes a wrong number of arguments. BN_mod_exp is taken to refuse negative exponents and moduli that are not positive. *)
Definition to_opt {A} (o : outcome A) : option A := match o with Ok a => Some a | _ => None end.
Definition eval (f : func) (args : list Z) : option Z :=
  match f, args with
  | FAdd, [a; b] => Some (a + b)
  | FSub, [a; b] => Some (a - b)
  | FMul, [a; b] => Some (a * b)
  | FMod, [a; m] => if m =? 0 then None else Some (a mod Z.abs m)
  | FPow, [a; e] => Some (a ^ Z.abs e)
  | FModMul, [a; b; m] => if m =? 0 then None else Some ((a * b) mod Z.abs m)
  | FModExp, [a; e; m] => to_opt (bn_mod_exp a e m)
  | FGcd, [a; b] => Some (Z.gcd a b)
  | FModInverse, [a; m] => to_opt (bn_mod_inverse a m)
  | FModSqrt, [a; m] => mod_sqrt a m
  | _, _ => None
  end.

Definition value (w : world) (r : ref) : option Z := option_map o_value (nth_error (w_objs w) r).
Fixpoint values (w : world) (rs : list ref) : option (list Z) :=
  match rs with
  | [] => Some []
  | r :: rest => match value w r, values w rest with Some v, Some vs => Some (v :: vs) | _, _ => None end
  end.
Definition set_objs (w : world) (l : list obj) : world :=
  {| w_objs := l; w_zero := w_zero w; w_one := w_one w; w_two := w_two w; w_cache := w_cache w; w_max := w_max w |}.
Fixpoint set_nth (l : list obj) (r : ref) (o : obj) : list obj :=
  match l, r with
  | [], _ => []
  | _ :: rest, O => o :: rest
  | x :: rest, S k => x :: set_nth rest k o
  end.
(** A new BigNum, immutable (691). *)
Definition alloc (w : world) (v : Z) : world * ref := (set_objs w (w_objs w ++ [{| o_value := v; o_immutable := true |}]), length (w_objs w)).

(** 714-724 FromLongNumber, FromBytes. *)
Definition from_long (w : world) (n : Z) : world * outcome ref :=
  match long_to_bn n with
  | Ok v => let (w', r) := alloc w v in (w', Ok r)
  | Err c => (w, Err c) | Crash => (w, Crash) | UB => (w, UB) | Diverge => (w, Diverge)
  end.
(** 695-711: the class methods Zero, One and Two create their object, with FromLongNumber of the literal, once. *)
Definition zero (w : world) : world * ref :=
  match w_zero w with
  | Some r => (w, r)
  | None => let (w', r) := alloc w 0 in ({| w_objs := w_objs w'; w_zero := Some r; w_one := w_one w'; w_two := w_two w'; w_cache := w_cache w'; w_max := w_max w' |}, r)
  end.
Definition one (w : world) : world * ref :=
  match w_one w with
  | Some r => (w, r)
  | None => let (w', r) := alloc w 1 in ({| w_objs := w_objs w'; w_zero := w_zero w'; w_one := Some r; w_two := w_two w'; w_cache := w_cache w'; w_max := w_max w' |}, r)
  end.
Definition two (w : world) : world * ref :=
  match w_two w with
  | Some r => (w, r)
  | None => let (w', r) := alloc w 2 in ({| w_objs := w_objs w'; w_zero := w_zero w'; w_one := w_one w'; w_two := Some r; w_cache := w_cache w'; w_max := w_max w' |}, r)
  end.
(** 1031-1034 _ComputeResult with 1044-1054 _ComputeResultIntoBigNum; 942-952 ModInverse turns the AssertionError into a ValueError. *)
Definition compute (w : world) (f : func) (args : list ref) : world * outcome ref :=
  match values w args with
  | None => (w, UB)
  | Some vs => match eval f vs with Some v => let (w', r) := alloc w v in (w', Ok r) | None => (w, Err (match f with FModInverse => InvalidArgument | _ => Internal end)) end
  end.
(** 1036-1042 _ComputeResultInPlace. What a failing OpenSSL function leaves in its result is not specified: [junk]. (BN_gcd and
    BN_mod_inverse have no method in place; the model lets a program use them as well.) *)
Definition compute_in_place (w : world) (f : func) (junk : Z) (self : ref) (args : list ref) : world * outcome ref :=
  match nth_error (w_objs w) self, values w (self :: args) with
  | Some o, Some vs =>
      if o_immutable o then (w, Err InvalidArgument)
      else match eval f vs with
           | Some v => (set_objs w (set_nth (w_objs w) self {| o_value := v; o_immutable := false |}), Ok self)
           | None => (set_objs w (set_nth (w_objs w) self {| o_value := junk; o_immutable := false |}), Err Internal)
           end
  | _, _ => (w, UB)
  end.
(** BN_lshift and BN_rshift: the magnitude is shifted; a negative count fails. *)
Definition shifted (left_ : bool) (v n : Z) : option Z := if n <? 0 then None else Some (if left_ then v * 2 ^ n else Z.quot v (2 ^ n)).
(** 818-821 __rshift__, 827-830 __lshift__. *)
Definition shift (w : world) (left_ : bool) (self : ref) (n : Z) : world * outcome ref :=
  match value w self with
  | None => (w, UB)
  | Some v => match shifted left_ v n with Some v' => let (w', r) := alloc w v' in (w', Ok r) | None => (w, Err Internal) end
  end.
(** 823-825 __irshift__, 832-834 __ilshift__: the flag is not looked at. *)
Definition shift_in_place (w : world) (left_ : bool) (self : ref) (n : Z) : world * outcome ref :=
  match nth_error (w_objs w) self with
  | None => (w, UB)
  | Some o => match shifted left_ (o_value o) n with
              | Some v' => (set_objs w (set_nth (w_objs w) self {| o_value := v'; o_immutable := o_immutable o |}), Ok self)
              | None => (w, Err Internal)
              end
  end.
(** 839-840 __truediv__ with 845-877 _Div: the remainder is compared with the shared Zero. (__idiv__ belongs to Python 2; in Python 3 /= calls
    __truediv__.) *)
Definition divide (w : world) (self other : ref) : world * outcome ref :=
  match value w self, value w other with
  | Some a, Some b =>
      if b =? 0 then (w, Err Internal)
      else
        let (w1, r) := alloc w (Z.quot a b) in
        let (w2, z) := zero w1 in
        match value w2 z with
        | None => (w2, UB)
        | Some zv => if negb (Z.rem a b =? zv) then (w2, Err InvalidArgument) else (w2, Ok r)
        end
  | _, _ => (w, UB)
  end.
(** 773-775 Clone. *)
Definition clone (w : world) (self : ref) : world * outcome ref :=
  match value w self with None => (w, UB) | Some v => let (w', r) := alloc w v in (w', Ok r) end.
(** 777-780 Mutable. *)
Definition mutable (w : world) (self : ref) : world * outcome ref :=
  match nth_error (w_objs w) self with
  | None => (w, UB)
  | Some o => (set_objs w (set_nth (w_objs w) self {| o_value := o_value o; o_immutable := false |}), Ok self)
  end.
(** 1005-1009 AddOne, SubtractOne. *)
Definition add_one (w : world) (self : ref) : world * outcome ref := let (w1, r) := one w in compute w1 FAdd [self; r].
Definition subtract_one (w : world) (self : ref) : world * outcome ref := let (w1, r) := one w in compute w1 FSub [self; r].
(** 1002-1003 ModNegate. *)
Definition mod_negate (w : world) (self modulus : ref) : world * outcome ref :=
  match compute w FMod [self; modulus] with
  | (w1, Ok r) => compute w1 FSub [modulus; r]
  | (w1, other) => (w1, other)
  end.
(** 981-989 GenerateRand with BN_rand_range, which refuses a bound that is not positive; [e] is raw entropy. *)
Definition generate_rand (w : world) (e : Z) (self : ref) : world * outcome ref :=
  match value w self with
  | None => (w, UB)
  | Some b => if b <=? 0 then (w, Err Internal) else let (w', r) := alloc w (e mod b) in (w', Ok r)
  end.
(** 991-1000 GenerateRandWithStart. *)
Definition generate_rand_with_start (w : world) (e : Z) (self start : ref) : world * outcome ref :=
  match compute w FSub [self; start] with
  | (w1, Ok d) =>
      match generate_rand w1 e d with
      | (w2, Ok r) => compute w2 FAdd [r; start]
      | (w2, other) => (w2, other)
      end
  | (w1, other) => (w1, other)
  end.
(** 1074-1081: the singleton is initialised again by every call of the constructor. *)
Definition new_cache (w : world) (max_count : Z) : world :=
  {| w_objs := w_objs w; w_zero := w_zero w; w_one := w_one w; w_two := w_two w; w_cache := []; w_max := max_count |}.
(** 1083-1097 Get. *)
Fixpoint lookup (n : Z) (l : list (Z * ref)) : option ref :=
  match l with [] => None | (k, r) :: rest => if k =? n then Some r else lookup n rest end.
Definition cache_get (w : world) (n : Z) : world * outcome ref :=
  match lookup n (w_cache w) with
  | Some r => (w, Ok r)
  | None =>
      match from_long w n with
      | (w1, Ok r) =>
          if w_max w <=? Z.of_nat (length (w_cache w)) then (w1, Ok r)
          else ({| w_objs := w_objs w1; w_zero := w_zero w1; w_one := w_one w1; w_two := w_two w1; w_cache := (n, r) :: w_cache w1; w_max := w_max w1 |}, Ok r)
      | other => other
      end
  end.
(** 1056-1066 GetAsLong, 782-783 __hash__ (of the pointer and the flag), 1014-1019 __eq__. *)
Definition get_as_long (w : world) (r : ref) : option Z := option_map (fun o => bn_to_long (o_value o)) (nth_error (w_objs w) r).
Definition hash_key (w : world) (r : ref) : option (ref * bool) := option_map (fun o => (r, o_immutable o)) (nth_error (w_objs w) r).
Definition equal (w : world) (a b : ref) : option bool :=
  match value w a, value w b with Some x, Some y => Some (x =? y) | _, _ => None end.

(** The calls a program can make; [CPrime v] stands for the three prime generators (726-753), [v] being what OpenSSL produced. *)
Inductive call :=
| CLong (n : Z) | CPrime (v : Z) | CRand (e : Z) (a : ref) | CRandWithStart (e : Z) (a start : ref) | CZero | COne | CTwo | CClone (a : ref) | CMutable (a : ref)
| CCompute (f : func) (args : list ref) | CInPlace (f : func) (junk : Z) (self : ref) (args : list ref)
| CShift (left_ : bool) (a : ref) (n : Z) | CShiftInPlace (left_ : bool) (a : ref) (n : Z)
| CDivide (a b : ref) | CAddOne (a : ref) | CSubtractOne (a : ref) | CModNegate (a m : ref)
| CNewCache (max_count : Z) | CCacheGet (n : Z).
Definition step (w : world) (c : call) : world * outcome ref :=
  match c with
  | CLong n => from_long w n
  | CPrime v => let (w', r) := alloc w v in (w', Ok r)
  | CRand e a => generate_rand w e a
  | CRandWithStart e a start => generate_rand_with_start w e a start
  | CZero => let (w', r) := zero w in (w', Ok r)
  | COne => let (w', r) := one w in (w', Ok r)
  | CTwo => let (w', r) := two w in (w', Ok r)
  | CClone a => clone w a
  | CMutable a => mutable w a
  | CCompute f args => compute w f args
  | CInPlace f junk self args => compute_in_place w f junk self args
  | CShift l a n => shift w l a n
  | CShiftInPlace l a n => shift_in_place w l a n
  | CDivide a b => divide w a b
  | CAddOne a => add_one w a
  | CSubtractOne a => subtract_one w a
  | CModNegate a m => mod_negate w a m
  | CNewCache n => (new_cache w n, Ok O)
  | CCacheGet n => cache_get w n
  end.
Fixpoint run (w : world) (l : list call) : world := match l with [] => w | c :: rest => run (fst (step w c)) rest end.
End Num.
(** elliptic_curve.py 268-276 GetRandomGenerator: a copy of the generator times a number drawn between BigNum.One() and the order. The curve's
    order is the plain integer of lines 235-236 and 328-330. *)
Definition py_random_generator (mod_sqrt : Z -> Z -> option Z) (C : ec) (w : world) (e : Z) : world * outcome (pt C) :=
  match from_long w (ec_order C) with
  | (w1, Ok n) =>
      let (w2, u) := one w1 in
      match generate_rand_with_start mod_sqrt w2 e n u with
      | (w3, Ok k) => match value w3 k with Some v => (w3, Ok (pmul C v (pgen C))) | None => (w3, UB) end
      | (w3, Err c) => (w3, Err c) | (w3, Crash) => (w3, Crash) | (w3, UB) => (w3, UB) | (w3, Diverge) => (w3, Diverge)
      end
  | (w1, Err c) => (w1, Err c) | (w1, Crash) => (w1, Crash) | (w1, UB) => (w1, UB) | (w1, Diverge) => (w1, Diverge)
  end.
