(** Models the functions on plain integers of py/crypto_util/ssl_util.py 434-511 and the prime tests of BigNum (755-764). ValueError is
    [Err InvalidArgument], the AssertionError of SSLProxy (344-397) is [Err Internal]. *)
From Verif Require Import Base M_BigNum M_Python M_PyNum.

(** What is passed to TempBNs (455-511): None, an int or bytes. A str, whose wide characters OpenSSL would read, and lists are not modelled. *)
Inductive temp := TNone | TInt (z : Z) | TBytes (s : bytes).
(** ssl_util.py 493-504: a new OpenSSL number is 0; an int is stored with LongtoBn unless it is 0 (line 496); bytes are no str (line 503), so
    nothing is stored. *)
Definition temp_bn (t : temp) : outcome Z :=
  match t with
  | TNone => Ok 0
  | TInt z => if z =? 0 then Ok 0 else long_to_bn z
  | TBytes _ => Ok 0
  end.
(** ssl_util.py 483-497 and 509-511: the numbers made by the constructor, one after the other, and how many of them are live when the statement
    [with TempBNs(...)] around [body] is left: __exit__ frees all of them, however the body ends, but does not run when the constructor raises. *)
Fixpoint temp_init (made : nat) (ts : list temp) : nat * outcome (list Z) :=
  match ts with
  | [] => (made, Ok [])
  | t :: ts' =>
      match temp_bn t with
      | Ok v => let (m, o) := temp_init (S made) ts' in (m, let* vs := o in Ok (v :: vs))
      | Err c => (S made, Err c) | Crash => (S made, Crash) | UB => (S made, UB) | Diverge => (S made, Diverge)
      end
  end.
Definition with_temps {A} (ts : list temp) (body : list Z -> outcome A) : nat * outcome A :=
  match temp_init 0 ts with
  | (m, Ok vs) => ((m - length vs)%nat, body vs)
  | (m, Err c) => (m, Err c) | (m, Crash) => (m, Crash) | (m, UB) => (m, UB) | (m, Diverge) => (m, Diverge)
  end.
(** SSLProxy: a call that fails ends in an AssertionError. *)
Definition checked {A} (o : outcome A) : outcome A := match o with Ok a => Ok a | _ => Err Internal end.

(** 434-438 GetRandomInRange; BN_rand_range refuses a bound that is not positive; [e] is raw entropy. Each function returns the OpenSSL numbers it
    leaves live and its result. *)
Definition py_random_in_range (e start stop : Z) : nat * outcome Z :=
  with_temps [TNone; TInt (stop - start)] (fun vs =>
    match vs with
    | [_; interval] => if interval <=? 0 then Err Internal else Ok (bn_to_long (e mod interval) + start)
    | _ => UB
    end).
(** 441-445 ModExp. *)
Definition py_mod_exp (g x n : temp) : nat * outcome Z :=
  with_temps [TNone; g; x; n] (fun vs =>
    match vs with
    | [_; bg; bx; bn] => let* r := checked (bn_mod_exp bg bx bn) in Ok (bn_to_long r)
    | _ => UB
    end).
(** 448-452 ModInverse. *)
Definition py_mod_inverse (x n : temp) : nat * outcome Z :=
  with_temps [TNone; x; n] (fun vs =>
    match vs with
    | [_; bx; bn] => let* r := checked (bn_mod_inverse bx bn) in Ok (bn_to_long r)
    | _ => UB
    end).

Section Prime.
(** BN_is_prime_ex: 1, 0, or -1 on an error. It is in the list of functions whose result SSLProxy does not check (370). *)
Variable prime_test : Z -> Z.
Variable mod_sqrt : Z -> Z -> option Z.
(** 755-758 IsPrime. *)
Definition py_is_prime (v : Z) : bool := negb (prime_test v =? 0).
(** 760-764 IsSafePrime. *)
Definition py_is_safe_prime (w : world) (self : ref) : world * outcome bool :=
  match value w self with
  | None => (w, UB)
  | Some v =>
      if py_is_prime v then
        let (w1, u) := one w in
        match compute mod_sqrt w1 FSub [self; u] with
        | (w2, Ok d) =>
            let (w3, t) := two w2 in
            match divide w3 d t with
            | (w4, Ok h) => match value w4 h with Some q => (w4, Ok (py_is_prime q)) | None => (w4, UB) end
            | (w4, Err c) => (w4, Err c) | (w4, Crash) => (w4, Crash) | (w4, UB) => (w4, UB) | (w4, Diverge) => (w4, Diverge)
            end
        | (w2, Err c) => (w2, Err c) | (w2, Crash) => (w2, Crash) | (w2, UB) => (w2, UB) | (w2, Diverge) => (w2, Diverge)
        end
      else (w, Ok false)
  end.
End Prime.
