(** What an observer may learn from ciphertexts made with a public key, by counting over independent uniform draws as in [S_Hide]: a game on masks, an observer who chooses the plaintexts as the
    conversation goes on, and the players of the game the observer gives rise to. *)
From Verif Require Import Base M_CS S_Hide.

Section Scheme.
(** Plaintexts, ciphertexts, masks. *)
Context {P A M : Type}.
(** The bounds of the draws of one encryption, and the encryption as the library makes it from its draws. *)
Variable draws : list Z.
Variable enc : P -> list Z -> A.
(** The mask that belongs to the draws, how a plaintext is put under a mask, and how random draws (with these bounds) blur a mask. *)
Variable mask : list Z -> M.
Variable put : P -> M -> A.
Variable noise : list Z.
Variable blur : list Z -> M -> M.

(** The game. A player with some coins is shown a mask, or a blurred mask, and says yes or no. The gap is the difference between the numbers of draws for which it says yes. *)
Definition mask_gap (coins : list Z) (player : list Z -> M -> bool) : Z :=
  let world (shown : list Z -> M -> M) := count (draws ++ noise ++ coins) (fun ds =>
    let rest := skipn (length draws) ds in
    player (skipn (length noise) rest) (shown (firstn (length noise) rest) (mask (firstn (length draws) ds)))) in
  Z.abs (world (fun _ c => c) - world blur).

(** A conversation: in every turn the observer names two plaintexts, which may depend on the ciphertexts so far, and gets a fresh encryption of the first, or always of the second. *)
Variable ask : list A -> P * P.
Definition pick (second : bool) (q : P * P) : P := if second then snd q else fst q.
Fixpoint converse (turns : nat) (second : bool) (seen : list A) (ds : list Z) : list A :=
  match turns with
  | O => seen
  | S t => converse t second (seen ++ [enc (pick second (ask seen)) (firstn (length draws) ds)]) (skipn (length draws) ds)
  end.
(** For how many draws the observer, after the conversation, says yes. *)
Variable guess : list A -> bool.
Definition turn_draws (turns : nat) : list Z := concat (repeat draws turns).
Definition says_yes (turns : nat) (second : bool) : Z := count (turn_draws turns) (fun ds => guess (converse turns second [] ds)).

(** The player number [j], in one version for either alternative: it answers the first [j] requests with the first plaintext and those after the next one with the second, by encrypting with its
    own coins; to request [j] it answers with a plaintext under the mask it was shown. It knows only what is public. *)
Definition mask_player (turns j : nat) (second : bool) (cs : list Z) (c : M) : bool :=
  let before := converse j false [] cs in
  guess (converse (turns - 1 - j) true (before ++ [put (pick second (ask before)) c]) (skipn (j * length draws) cs)).
(** The sum of the gaps of all players. *)
Definition mask_total (turns : nat) : Z :=
  zsum turns (fun j => mask_gap (turn_draws (turns - 1)) (mask_player turns (Z.to_nat j) false) + mask_gap (turn_draws (turns - 1)) (mask_player turns (Z.to_nat j) true)).
End Scheme.

(** ** The masks of the two cryptosystems; n is the public modulus. *)
Section Masks.
Variable n : Z.
Variable s : nat.
Notation modulus := (n ^ (Z.of_nat s + 1)).
(** x times a power of 1 + n, which is where the plaintext is; plaintexts count modulo n^s. *)
Definition times (v x : Z) : Z := ((1 + n) ^ (v mod n ^ Z.of_nat s) * x) mod modulus.
(** The first of the draws that is prime to n. *)
Definition first_unit (raws : list Z) : option Z := find (fun r => Z.gcd r n =? 1) raws.

(** Camenisch and Shoup: the mask of the components is made of powers of the public y_i with the same exponent as the power of g that is published. No mask when no draw was good: then the
    program has not ended. *)
Definition cs_mask (g : Z) (ys : list Z) (raws : list Z) : option (Z * list Z) :=
  match first_unit raws with Some r => Some (g ^ r mod modulus, map (fun y => y ^ r mod modulus) ys) | None => None end.
Definition cs_put (ms : list Z) (c : option (Z * list Z)) : outcome cs_ciphertext :=
  match c with
  | Some (u, es) => Ok {| ct_u := u; ct_es := map (fun me => times (fst me) (snd me)) (combine (ms ++ repeat 0 (length es - length ms)) es) |}
  | None => Diverge
  end.
Definition cs_blur (zs : list Z) (c : option (Z * list Z)) : option (Z * list Z) :=
  match c with Some (u, es) => Some (u, map (fun ze => times (fst ze) (snd ze)) (combine zs es)) | None => None end.

(** Paillier: powers of a published number, or n^s-th powers of units. *)
Definition power_mask (base : Z) (ds : list Z) : option Z := Some (base ^ hd 0 ds mod modulus).
Definition residue_mask (raws : list Z) : option Z := option_map (fun r => r ^ (n ^ Z.of_nat s) mod modulus) (first_unit raws).
Definition p_put (m : Z) (c : option Z) : outcome Z := match c with Some x => Ok (times m x) | None => Diverge end.
Definition p_blur (zs : list Z) (c : option Z) : option Z := option_map (times (hd 0 zs)) c.
End Masks.
