(** The decisional Diffie-Hellman game on a curve, and what it means that a list of points multiplied by one secret key looks like a list of random points.
    Everything is counted over independent uniform draws, as in [S_Hide]. *)
From Verif Require Import Base M_EC S_Hide.

Section Ddh.
Variable C : ec.

(** A draw below order - 1 gives a key d + 1 and, times the generator, a point: each of the points other than infinity for exactly one draw. *)
Definition drawn_point (d : Z) : pt C := pmul C (d + 1) (pgen C).
Definition draws (num : nat) : list Z := repeat (ec_order C - 1) num.

(** The game.  A player with some coins is shown A = a G, K = k G and either a k G or an independent c G, and says yes or no.  The gap is the difference between the
    numbers of draws for which it says yes; divided by the number of all draws it is the player's advantage. *)
Definition ddh_gap (coins : list Z) (player : list Z -> pt C -> pt C -> pt C -> bool) : Z :=
  let world (third : Z -> Z -> Z -> pt C) := count (draws 3 ++ coins) (fun ds => match ds with
    | a :: k :: c :: cs => player cs (drawn_point a) (drawn_point k) (third a k c)
    | _ => false end) in
  Z.abs (world (fun a k _ => pmul C (k + 1) (drawn_point a)) - world (fun _ _ c => drawn_point c)).

(** Of P and -P the one with the even y, which is the one hashing to the curve returns (ec_group.cc 167-179), as a multiple of P. *)
Definition sign (P : pt C) : Z := match ec_xy C P with Some (_, y) => if Z.even y then 1 else -1 | None => 1 end.
Definition even_one (P : pt C) : pt C := pmul C (sign P) P.
(** A hash function drawn at random: the point of an identifier. *)
Definition hash_point (d : Z) : pt C := even_one (drawn_point d).

(** Draws for [n] identifiers whose points are multiplied by the key, two each (the second for a random point), then one each for [m] further identifiers, then other coins. *)
Fixpoint pairs (n : nat) (ds : list Z) : list (Z * Z) :=
  match n, ds with S k, a :: c :: r => (a, c) :: pairs k r | _, _ => [] end.
Definition hash_table (n m : nat) (ds : list Z) : list (pt C) := map (fun d => hash_point (fst d)) (pairs n ds) ++ map hash_point (firstn m (skipn (2 * n) ds)).
Definition extra_coins (n m : nat) (ds : list Z) : list Z := skipn (2 * n + m) ds.
(** The points under the key of draw [k], and random points in their place. *)
Definition under_key (k : Z) (n : nat) (ds : list Z) : list (pt C) := map (fun d => pmul C (k + 1) (hash_point (fst d))) (pairs n ds).
Definition random_points (n : nat) (ds : list Z) : list (pt C) := map (fun d => drawn_point (snd d)) (pairs n ds).

(** The player number [j] for an observer who sees the table of hashes and [n] points: it puts A into place [j] of the table and the third point into place [j] of the list, both with
    the sign that makes A's y even; the places before hold multiples of K, the places after random points.  It runs the observer once, on points it can compute. *)
Definition ddh_player (n m j : nat) (observer : list Z -> list (pt C) -> list (pt C) -> bool) (cs : list Z) (A K T : pt C) : bool :=
  let before := pairs j cs in
  let after := pairs (n - 1 - j) (skipn (2 * j) cs) in
  let further := firstn m (skipn (2 * (n - 1)) cs) in
  observer (extra_coins (n - 1) m cs)
    (map (fun d => hash_point (fst d)) before ++ even_one A :: map (fun d => hash_point (fst d)) after ++ map hash_point further)
    (map (fun d => pmul C (sign (drawn_point (fst d)) * (fst d + 1)) K) before ++ pmul C (sign A) T :: map (fun d => drawn_point (snd d)) after).
(** The sum of the gaps of all players. *)
Definition ddh_total (n m : nat) (extra : list Z) (observer : list Z -> list (pt C) -> list (pt C) -> bool) : Z :=
  zsum n (fun j => ddh_gap (draws (2 * (n - 1) + m) ++ extra) (ddh_player n m (Z.to_nat j) observer)).

(** Negation reflects a point in the x-axis, and no point lies on the axis (the order is odd). *)
Definition mirrors : Prop := forall P x y, ec_xy C P = Some (x, y) -> 0 < y /\ ec_xy C (pneg C P) = Some (x, ec_p C - y).
End Ddh.
