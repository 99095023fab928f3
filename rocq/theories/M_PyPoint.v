(** Models the Python objects ECPoint, EllipticCurve and ECKey of py/crypto_util/elliptic_curve.py and EcCipher of py/ciphers/ec_cipher.py as
    references to structures of OpenSSL: which of them a call changes, and which of them still exist. All curves are the same curve [C].
    ValueError is [Err InvalidArgument], a failed assertion of SSLProxy is [Err Internal], a use of freed memory or of an address that is none
    is [UB]. A program cannot name an object that it never had or let go of: the model answers [Err NotFound]. *)
From Verif Require Import Base M_BigNum M_Num M_EC M_Group M_Cipher M_Python.

Section Points.
Variable C : ec.
Variable X : externals.
Variable sqrt_p : Z -> Z.
Variable decode : bytes -> option (pt C).
Variable fuel : nat.

(** elliptic_curve.py 35-40: a point keeps the address of the group of its curve, and no reference to the EllipticCurve. *)
Record point := { p_group : nat; p_value : pt C }.
(** elliptic_curve.py 330-359: the EC_KEY with its private key, and the curve that the ECKey holds. *)
Record key := { k_live : bool; k_curve : nat; k_cipher : py_cipher }.
(** The EllipticCurve objects, each with the number of references that the program itself holds and its hash type; the ECKeys; the points.
    Objects are never renumbered. *)
Record curve := { c_held : nat; c_hash : Z }.
Record heap := { h_curves : list curve; h_keys : list key; h_points : list point }.
Definition heap_init : heap := {| h_curves := []; h_keys := []; h_points := [] |}.

Fixpoint set_at {A} (l : list A) (n : nat) (a : A) : list A :=
  match l, n with
  | [], _ => []
  | _ :: rest, O => a :: rest
  | x :: rest, S k => x :: set_at rest k a
  end.
Definition with_curves (h : heap) (l : list curve) : heap := {| h_curves := l; h_keys := h_keys h; h_points := h_points h |}.
Definition with_keys (h : heap) (l : list key) : heap := {| h_curves := h_curves h; h_keys := l; h_points := h_points h |}.
Definition with_points (h : heap) (l : list point) : heap := {| h_curves := h_curves h; h_keys := h_keys h; h_points := l |}.

(** elliptic_curve.py 249-250: __del__ frees the EC_GROUP, which Python calls when the last reference is gone. The program and the living ECKeys
    hold references. *)
Definition group_live (h : heap) (g : nat) : bool :=
  match nth_error (h_curves h) g with
  | Some c => Nat.ltb 0 (c_held c) || existsb (fun e => k_live e && Nat.eqb (k_curve e) g) (h_keys h)
  | None => false
  end.
Definition living_key (h : heap) (k : nat) : outcome key :=
  match nth_error (h_keys h) k with Some e => if k_live e then Ok e else Err NotFound | None => Err NotFound end.

(** A number to multiply with (126-156): a BigNum; the address that ECKey.priv_key_bn handed out (372-374), which is inside the EC_KEY; or any
    other int, which is taken for an address as well. *)
Inductive scalar := SNum (z : Z) | SKeyAddress (k : nat) | SInt (z : Z).
Definition scalar_value (h : heap) (s : scalar) : outcome Z :=
  match s with
  | SNum z => Ok z
  | SKeyAddress k => match nth_error (h_keys h) k with Some e => if k_live e then Ok (pc_key (k_cipher e)) else UB | None => Err NotFound end
  | SInt _ => UB
  end.
(** The point behind a reference. *)
Definition point_at (h : heap) (p : nat) : outcome point := match nth_error (h_points h) p with Some e => Ok e | None => Err NotFound end.
(** A point of which OpenSSL reads the group as well. *)
Definition point_with_group (h : heap) (p : nat) : outcome point := let* e := point_at h p in if group_live h (p_group e) then Ok e else UB.

(** The heap stays as it is when a call fails. *)
Definition attempt {A} (h : heap) (o : outcome (heap * A)) : heap * outcome A :=
  match o with
  | Ok (h', a) => (h', Ok a)
  | Err c => (h, Err c) | Crash => (h, Crash) | UB => (h, UB) | Diverge => (h, Diverge)
  end.
Definition new_point (h : heap) (g : nat) (P : pt C) : heap * nat :=
  (with_points h (h_points h ++ [{| p_group := g; p_value := P |}]), length (h_points h)).
Definition set_point (h : heap) (p g : nat) (P : pt C) : heap * nat :=
  (with_points h (set_at (h_points h) p {| p_group := g; p_value := P |}), p).
(** 252-266: a method of a curve makes a point. *)
Definition construct (h : heap) (g : nat) (o : outcome (pt C)) : outcome (heap * nat) :=
  if group_live h g then let* P := o in Ok (new_point h g P) else Err NotFound.
(** 252-254: with the hash type of the curve. *)
Definition hash_point (h : heap) (g : nat) (m : message) : outcome (pt C) :=
  match nth_error (h_curves h) g with Some c => py_hash_point C X sqrt_p fuel (c_hash c) m | None => Err NotFound end.

(** 126-143 __mul__ and 145-156 __imul__; OpenSSL multiplies with the scalar modulo the order. *)
Definition mul (h : heap) (p : nat) (s : scalar) : outcome (heap * nat) :=
  let* e := point_with_group h p in
  let* z := scalar_value h s in
  Ok (new_point h (p_group e) (point_mul C (p_value e) z)).
Definition imul (h : heap) (p : nat) (s : scalar) : outcome (heap * nat) :=
  let* e := point_with_group h p in
  let* z := scalar_value h s in
  Ok (set_point h p (p_group e) (point_mul C (p_value e) z)).
(** 158-165 __add__ and 167-173 __iadd__: only the group of the first point is used. *)
Definition add (h : heap) (p q : nat) : outcome (heap * nat) :=
  let* e := point_with_group h p in
  let* f := point_at h q in
  Ok (new_point h (p_group e) (padd C (p_value e) (p_value f))).
Definition iadd (h : heap) (p q : nat) : outcome (heap * nat) :=
  let* e := point_with_group h p in
  let* f := point_at h q in
  Ok (set_point h p (p_group e) (padd C (p_value e) (p_value f))).
(** 186-199 GetAsBytes, 183-184 GetAsLong, 180-181 IsAtInfinity, 201-211 __eq__ and __ne__ (the first point's group is used). *)
Definition as_bytes (h : heap) (p : nat) : outcome bytes := let* e := point_with_group h p in Ok (py_encoded C (p_value e)).
Definition as_long (h : heap) (p : nat) : outcome Z := let* s := as_bytes h p in Ok (bytes_to_long s).
Definition at_infinity (h : heap) (p : nat) : outcome bool := let* e := point_with_group h p in Ok (is_inf C (p_value e)).
Definition equal (h : heap) (p q : nat) : outcome bool :=
  let* e := point_with_group h p in let* f := point_at h q in Ok (peqb C (p_value e) (p_value f)).
Definition unequal (h : heap) (p q : nat) : outcome bool := let* b := equal h p q in Ok (negb b).

(** 220-250 EllipticCurve: a curve with one reference, in a variable of the program. The hash type is the default when not given. *)
Definition new_curve (h : heap) (hash_type : option Z) : heap * nat :=
  (with_curves h (h_curves h ++ [{| c_held := 1; c_hash := match hash_type with Some t => t | None => py_default_hash end |}]), length (h_curves h)).
(** 333-359 ECKey with ec_cipher.py 31-53: the key makes a curve of its own (354) and holds it. *)
Definition new_cipher (h : heap) (key_bytes : option bytes) (raw : Z) (hash_type : option Z) : outcome (heap * nat) :=
  let* c := py_new C key_bytes raw hash_type in
  Ok (with_keys (with_curves h (h_curves h ++ [{| c_held := 0; c_hash := pc_hash c |}]))
        (h_keys h ++ [{| k_live := true; k_curve := length (h_curves h); k_cipher := c |}]), length (h_keys h)).
(** 384-386 elliptic_curve, with ec_cipher.py 103-105: one more reference in the program. *)
Definition take_curve (h : heap) (k : nat) : outcome (heap * nat) :=
  let* e := living_key h k in
  match nth_error (h_curves h) (k_curve e) with
  | Some c => Ok (with_curves h (set_at (h_curves h) (k_curve e) {| c_held := S (c_held c); c_hash := c_hash c |}), k_curve e)
  | None => Err NotFound
  end.
(** The program lets go of a reference to a curve. *)
Definition drop_curve (h : heap) (g : nat) : outcome (heap * nat) :=
  match nth_error (h_curves h) g with
  | Some c => match c_held c with
              | O => Err NotFound
              | S n => Ok (with_curves h (set_at (h_curves h) g {| c_held := n; c_hash := c_hash c |}), g)
              end
  | None => Err NotFound
  end.
(** 361-362 ECKey.__del__ frees the EC_KEY when the program lets go of the cipher; the reference to its curve goes as well. *)
Definition drop_cipher (h : heap) (k : nat) : outcome (heap * nat) :=
  let* e := living_key h k in
  Ok (with_keys h (set_at (h_keys h) k {| k_live := false; k_curve := k_curve e; k_cipher := k_cipher e |}), k).

(** ec_cipher.py 72-82 EncryptPoint, which multiplies the point of the caller. *)
Definition encrypt_point (h : heap) (k p : nat) : outcome (heap * bytes) :=
  let* _ := living_key h k in
  let* r := imul h p (SKeyAddress k) in
  let* s := as_bytes (fst r) (snd r) in
  Ok (fst r, s).
(** ec_cipher.py 55-70 Encrypt, 84-97 ReEncrypt: a point of the curve that the key holds. The point is garbage afterwards; here it stays in the list. *)
Definition encrypt (h : heap) (k : nat) (m : bytes) : outcome (heap * bytes) :=
  let* e := living_key h k in
  let* r := construct h (k_curve e) (hash_point h (k_curve e) (MBytes m)) in
  encrypt_point (fst r) k (snd r).
Definition reencrypt (h : heap) (k : nat) (s : bytes) : outcome (heap * bytes) :=
  let* e := living_key h k in
  let* r := construct h (k_curve e) (py_point C decode (MBytes s)) in
  encrypt_point (fst r) k (snd r).
(** ec_cipher.py 107-128 DecryptReEncryptedId. *)
Definition decrypt (h : heap) (k : nat) (s : bytes) : outcome (heap * bytes) :=
  let* e := living_key h k in
  let* r := construct h (k_curve e) (py_point C decode (MBytes s)) in
  let* r' := imul (fst r) (snd r) (SNum (pc_inv (k_cipher e))) in
  let* t := as_bytes (fst r') (snd r') in
  Ok (fst r', t).

(** What a program can do. *)
Inductive pcall :=
| PNewCurve (hash_type : option Z) | PNewCipher (key_bytes : option bytes) (raw : Z) (hash_type : option Z)
| PTakeCurve (k : nat) | PDropCurve (g : nat) | PDropCipher (k : nat)
| PDecode (g : nat) (m : message) | PFromXY (g : nat) (x y : Z) | PHash (g : nat) (m : message) | PInfinity (g : nat)
| PMul (p : nat) (s : scalar) | PImul (p : nat) (s : scalar) | PAdd (p q : nat) | PIadd (p q : nat)
| PEncryptPoint (k p : nat) | PEncrypt (k : nat) (m : bytes) | PReEncrypt (k : nat) (s : bytes) | PDecrypt (k : nat) (s : bytes)
| PAsBytes (p : nat) | PAsLong (p : nat) | PAtInfinity (p : nat) | PEqual (p q : nat) | PUnequal (p q : nat).
(** What a call returns. *)
Inductive answer := ARef (n : nat) | ABytes (s : bytes) | ALong (z : Z) | ABool (b : bool).
Definition as_ref (o : outcome (heap * nat)) : outcome (heap * answer) := let* r := o in Ok (fst r, ARef (snd r)).
Definition with_bytes (o : outcome (heap * bytes)) : outcome (heap * answer) := let* r := o in Ok (fst r, ABytes (snd r)).
Definition reading {A} (h : heap) (f : A -> answer) (o : outcome A) : outcome (heap * answer) := let* a := o in Ok (h, f a).
Definition call (h : heap) (c : pcall) : outcome (heap * answer) :=
  match c with
  | PNewCurve t => as_ref (Ok (new_curve h t))
  | PNewCipher b raw t => as_ref (new_cipher h b raw t)
  | PTakeCurve k => as_ref (take_curve h k)
  | PDropCurve g => as_ref (drop_curve h g)
  | PDropCipher k => as_ref (drop_cipher h k)
  | PDecode g m => as_ref (construct h g (py_point C decode m))
  | PFromXY g x y => as_ref (construct h g (py_from_point C x y))
  | PHash g m => as_ref (construct h g (hash_point h g m))
  | PInfinity g => as_ref (construct h g (Ok (pinf C)))
  | PMul p s => as_ref (mul h p s)
  | PImul p s => as_ref (imul h p s)
  | PAdd p q => as_ref (add h p q)
  | PIadd p q => as_ref (iadd h p q)
  | PEncryptPoint k p => with_bytes (encrypt_point h k p)
  | PEncrypt k m => with_bytes (encrypt h k m)
  | PReEncrypt k s => with_bytes (reencrypt h k s)
  | PDecrypt k s => with_bytes (decrypt h k s)
  | PAsBytes p => reading h ABytes (as_bytes h p)
  | PAsLong p => reading h ALong (as_long h p)
  | PAtInfinity p => reading h ABool (at_infinity h p)
  | PEqual p q => reading h ABool (equal h p q)
  | PUnequal p q => reading h ABool (unequal h p q)
  end.
Definition step (h : heap) (c : pcall) : heap * outcome answer := attempt h (call h c).
(** A program that goes on after an exception; after undefined behaviour nothing is known, and theorems look at the first one. *)
Fixpoint run (h : heap) (l : list pcall) : heap := match l with [] => h | c :: rest => run (fst (step h c)) rest end.
(** The calls of a program with their answers. *)
Fixpoint trace (h : heap) (l : list pcall) : list (pcall * outcome answer) :=
  match l with [] => [] | c :: rest => (c, snd (step h c)) :: trace (fst (step h c)) rest end.
End Points.
