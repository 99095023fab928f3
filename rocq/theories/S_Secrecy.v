(** What an observer may ask an ElGamal encrypter for, and the players of the Diffie-Hellman game that an observer gives rise to. *)
From Verif Require Import Base M_EC M_ElGamal S_Hide S_Ddh.

Section Secrecy.
Variable C : ec.

(** A request: a fresh encryption of the first or of the second of two points, or a fresh re-randomisation of the first or of the second of two ciphertexts. *)
Inductive request := AskEncrypt (m0 m1 : pt C) | AskRerandomize (c0 c1 : eg_ct C).
(** The library call that answers it, with the draw [d]. *)
Definition answer (pk : eg_public C) (second : bool) (q : request) (d : Z) : eg_ct C :=
  match q with
  | AskEncrypt m0 m1 => eg_encrypt C pk (if second then m1 else m0) d
  | AskRerandomize c0 c1 => eg_rerandomize C pk (if second then c1 else c0) d
  end.
(** A conversation, one turn for each draw: [ask] chooses the next request from the public key and the answers so far.  The result is the list of all answers. *)
Fixpoint talk (pk : eg_public C) (ask : eg_public C -> list (eg_ct C) -> request) (second : bool) (seen : list (eg_ct C)) (ds : list Z) : list (eg_ct C) :=
  match ds with
  | [] => seen
  | d :: r => talk pk ask second (seen ++ [answer pk second (ask pk seen) d]) r
  end.

(** The part of the answer that is chosen by the observer: a point m stands for the ciphertext (infinity, m). *)
Definition chosen (second : bool) (q : request) : eg_ct C :=
  match q with
  | AskEncrypt m0 m1 => {| eg_u := pinf C; eg_e := if second then m1 else m0 |}
  | AskRerandomize c0 c1 => if second then c1 else c0
  end.
(** The player number [j], in one version for either alternative.  K is the unknown share of the public key, and [x] the sum of the known private keys.  It answers the first [j] requests with
    the first alternative and those after the next one with the second, by calling the library with its own coins; to request [j] it answers with A and the third point. *)
Definition secrecy_player (x : Z) (ask : eg_public C -> list (eg_ct C) -> request) (guess : eg_public C -> list (eg_ct C) -> bool) (j : nat) (second : bool) (cs : list Z) (A K T : pt C) : bool :=
  let pk := {| eg_g := pgen C; eg_y := padd C K (pmul C x (pgen C)) |} in
  let before := talk pk ask false [] (firstn j cs) in
  let c := chosen second (ask pk before) in
  let challenge := {| eg_u := padd C (eg_u C c) A; eg_e := padd C (eg_e C c) (padd C T (pmul C x A)) |} in
  guess pk (talk pk ask true (before ++ [challenge]) (skipn j cs)).
(** The sum of the gaps of all players in a conversation of [n] turns. *)
Definition secrecy_total (x : Z) ask guess (n : nat) : Z :=
  zsum n (fun j => ddh_gap C (draws C (n - 1)) (secrecy_player x ask guess (Z.to_nat j) false) + ddh_gap C (draws C (n - 1)) (secrecy_player x ask guess (Z.to_nat j) true)).
End Secrecy.
Arguments AskEncrypt {C}. Arguments AskRerandomize {C}.
