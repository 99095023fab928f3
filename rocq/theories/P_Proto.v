(** C52: vectors of numbers and of curve points as messages. *)
From Verif Require Import Base M_BigNum M_EC M_Proto S_BigNum L_BigNum L_EC L_Protocol L_Toy L_VRF.

(** Numbers: non-negative vectors come back unchanged, in order; a negative entry aborts the writer. *)
Theorem C52_bignum_vector : forall xs,
  (Forall (fun x => 0 <= x) xs /\ exists p, bignum_vector_to_proto xs = Ok p /\ parse_bignum_vector p = xs /\ length p = length xs) \/
  ((exists x, In x xs /\ x < 0) /\ bignum_vector_to_proto xs = Crash).
Proof.
  induction xs as [|x xs IH]; [left; split; [constructor|]; exists []; repeat split|]. unfold bignum_vector_to_proto, parse_bignum_vector in *. cbn [mapM].
  destruct (Z.ltb_spec x 0) as [Hx|Hx]; [right; split; [exists x; split; [left; reflexivity|exact Hx]|]; rewrite to_bytes_neg by exact Hx; reflexivity|].
  destruct (to_bytes_of x Hx) as (b & Eb & Vb). rewrite Eb. cbn [bind]. destruct IH as [(Hf & p & Ep & Vp & Lp)|[(z & Hz & Nz) Ec]].
  - left. split; [constructor; assumption|]. exists (b :: p). rewrite Ep. cbn [bind map length]. rewrite Vb, Vp, Lp. repeat split.
  - right. split; [exists z; split; [right; exact Hz|exact Nz]|]. rewrite Ec. reflexivity.
Qed.
Print Assumptions C52_bignum_vector.

(** Reading: any list of byte strings is read, entry by entry, as big-endian numbers; writing it again removes leading zero bytes only. *)
Theorem C52_bignum_vector_parse : forall p, bignum_vector_to_proto (parse_bignum_vector p) = Ok (map strip_zeros p) /\ length (parse_bignum_vector p) = length p.
Proof.
  intros p. split; [|apply map_length]. unfold bignum_vector_to_proto, parse_bignum_vector. induction p as [|b p IH]; [reflexivity|]. cbn [map mapM].
  rewrite to_bytes_of_bytes. cbn [bind]. rewrite IH. reflexivity.
Qed.
Print Assumptions C52_bignum_vector_parse.

(** Points: vectors of finite points come back unchanged, in order; infinity is refused with Internal by the writer. *)
Theorem C52_point_vector : forall C ps, ec_laws C ->
  (Forall (fun P => P <> pinf C) ps -> exists p, point_vector_to_proto C ps = Ok p /\ parse_point_vector C p = Ok ps /\ length p = length ps) /\
  (In (pinf C) ps -> point_vector_to_proto C ps = Err Internal).
Proof.
  intros C ps L. split.
  - intros H. exists (map (ec_enc C) ps). split; [apply (points_to_proto C L); exact H|]. split; [apply (parse_points C L); exact H|apply map_length].
  - intros H. apply (points_to_proto_err C L). intros F. rewrite Forall_forall in F. exact (F _ H eq_refl).
Qed.
Print Assumptions C52_point_vector.

(** Reading points: a vector is accepted, entry by entry, exactly when every entry decodes to a finite point of the curve; otherwise InvalidArgument. *)
Theorem C52_point_vector_parse : forall C p, ec_laws C ->
  (exists ps, parse_point_vector C p = Ok ps /\ Forall2 (fun b P => ec_dec C b = Some P /\ P <> pinf C) p ps) \/
  ((exists b, In b p /\ forall P, ec_dec C b = Some P -> P = pinf C) /\ parse_point_vector C p = Err InvalidArgument).
Proof.
  intros C p L. unfold parse_point_vector. induction p as [|b p IH]; [left; exists []; split; [reflexivity|constructor]|]. cbn [mapM]. unfold point_of_bytes at 1 3.
  destruct (ec_dec C b) as [P|] eqn:Eb.
  - destruct (is_inf C P) eqn:Ei.
    + right. split; [|reflexivity]. exists b. split; [left; reflexivity|]. intros Q EQ. apply (is_inf_true C L) in Ei. congruence.
    + cbn [bind]. apply (is_inf_false C L) in Ei. destruct IH as [(ps & -> & F)|[(b' & Hb & Hn) ->]].
      * left. exists (P :: ps). cbn [bind]. split; [reflexivity|]. constructor; [split; assumption|exact F].
      * right. split; [|reflexivity]. exists b'. split; [right; exact Hb|exact Hn].
  - right. split; [|reflexivity]. exists b. split; [left; reflexivity|]. intros P EP. congruence.
Qed.
Print Assumptions C52_point_vector_parse.

Example C52_vectors_ex : parse_bignum_vector [[x01; x00]; []; [x00; x07]] = [256; 0; 7] /\ bignum_vector_to_proto [256; 0; 7] = Ok [[x01; x00]; []; [x07]] /\
  bignum_vector_to_proto [3; -1] = Crash /\ point_vector_to_proto toy [pgen toy; pinf toy] = Err Internal /\
  match parse_point_vector toy [ec_enc toy (pgen toy); ec_enc toy (pmul toy 2 (pgen toy))] with Ok [P; Q] => peqb toy (padd toy P P) Q = true | _ => False end /\
  parse_point_vector toy [ec_enc toy (pgen toy); [x00]] = Err InvalidArgument.
Proof. repeat split; vm_compute; reflexivity. Qed.
