(** Specification of the Python point objects: which objects are in use, what a call should return, and what it may change. *)
From Verif Require Import Base M_BigNum M_EC M_Python M_PyPoint.

Section Spec.
Variable C : ec.
Notation heap := (heap C).

(** Somebody still refers to the curve: the program, or a cipher that is alive. *)
Definition in_use (h : heap) (g : nat) : Prop :=
  exists c, nth_error (h_curves C h) g = Some c /\
  ((0 < c_held c)%nat \/ exists k e, nth_error (h_keys C h) k = Some e /\ k_live e = true /\ k_curve e = g).
(** The curve of a point has been freed. *)
Definition orphan (h : heap) (p : nat) : Prop := exists e, nth_error (h_points C h) p = Some e /\ ~ in_use h (p_group C e).
(** The scalar is the address of a number that does not exist: of a cipher that was let go, or not an address at all. *)
Definition wild (h : heap) (s : scalar) : Prop :=
  match s with
  | SNum _ => False
  | SKeyAddress k => exists e, nth_error (h_keys C h) k = Some e /\ k_live e = false
  | SInt _ => True
  end.
(** The number that a scalar stands for. *)
Definition stands_for (h : heap) (s : scalar) (z : Z) : Prop :=
  match s with
  | SNum n => z = n
  | SKeyAddress k => exists e, nth_error (h_keys C h) k = Some e /\ k_live e = true /\ z = pc_key (k_cipher e)
  | SInt _ => False
  end.
(** The point that a reference stands for. *)
Definition at_ref (h : heap) (p : nat) : option (pt C) := option_map (p_value C) (nth_error (h_points C h) p).

(** The points whose group a call reads. *)
Definition first_point (c : pcall) : option nat :=
  match c with
  | PMul p _ | PImul p _ | PAdd p _ | PIadd p _ | PEncryptPoint _ p | PAsBytes p | PAsLong p | PAtInfinity p | PEqual p _ | PUnequal p _ => Some p
  | _ => None
  end.
(** The point that a call works on in place. *)
Definition changes (c : pcall) : option nat :=
  match c with PImul p _ | PIadd p _ | PEncryptPoint _ p => Some p | _ => None end.
(** Calls by which a program lets go of a curve or cipher, and calls with an ordinary number where an address is expected. *)
Definition drops (c : pcall) : Prop := match c with PDropCurve _ | PDropCipher _ => True | _ => False end.
Definition plain_int (c : pcall) : Prop := match c with PMul _ (SInt _) | PImul _ (SInt _) => True | _ => False end.

(** The result of an operation on points, in the group. *)
Definition group_result (h : heap) (c : pcall) (R : pt C) : Prop :=
  match c with
  | PMul p s | PImul p s => exists P z, at_ref h p = Some P /\ stands_for h s z /\ R = pmul C z P
  | PAdd p q | PIadd p q => exists P Q, at_ref h p = Some P /\ at_ref h q = Some Q /\ R = padd C P Q
  | PInfinity _ => R = pinf C
  | PFromXY _ x y => ec_xy C R = Some (x, y)
  | _ => False
  end.
End Spec.

(** What a program did to the references: it makes or takes curves and lets go of them. *)
Definition reference (g : nat) (c : pcall) (o : outcome answer) : Z :=
  match c, o with
  | (PNewCurve _ | PTakeCurve _), Ok (ARef n) => if Nat.eqb n g then 1 else 0
  | PDropCurve n, Ok _ => if Nat.eqb n g then -1 else 0
  | _, _ => 0
  end.
Definition lets_go (k : nat) (c : pcall) (o : outcome answer) : Prop := c = PDropCipher k /\ is_ok o = true.
Definition sum_over (f : pcall -> outcome answer -> Z) (l : list (pcall * outcome answer)) : Z := fold_right (fun x n => f (fst x) (snd x) + n) 0 l.
