(** A concrete curve satisfying [ec_laws]: y^2 = x^3 - 3x + 36 over F_67, a group of prime order 79. It shows that the
    hypotheses of the curve theorems are satisfiable and lets the examples be computed. *)
From Coq Require Import Znumtheory Eqdep_dec.
From Verif Require Import Base M_BigNum L_Mod M_EC.

Definition tp : Z := 67.
Definition ta : Z := 64.
Definition tb : Z := 36.
Definition tn : Z := 79.

Definition t_rhs (x : Z) : Z := (x * x * x + ta * x + tb) mod tp.
Definition on_curve (P : option (Z * Z)) : bool :=
  match P with
  | None => true
  | Some (x, y) => (0 <=? x) && (x <? tp) && (0 <=? y) && (y <? tp) && ((y * y) mod tp =? t_rhs x)
  end.
Definition inv_table : list Z := Eval vm_compute in map (fun x => Zpow_facts.Zpow_mod (Z.of_nat x) (tp - 2) tp) (seq 0 67).
Definition inv_p (x : Z) : Z := nth (Z.to_nat (x mod tp)) inv_table 0.
Definition raw_add (P Q : option (Z * Z)) : option (Z * Z) :=
  match P, Q with
  | None, _ => Q
  | _, None => P
  | Some (x1, y1), Some (x2, y2) =>
      if (x1 =? x2) && ((y1 + y2) mod tp =? 0) then None
      else
        let l := if x1 =? x2 then ((3 * x1 * x1 + ta) * inv_p (2 * y1)) mod tp else ((y2 - y1) * inv_p (x2 - x1)) mod tp in
        let x3 := (l * l - x1 - x2) mod tp in
        Some (x3, (l * (x1 - x3) - y1) mod tp)
  end.
Definition raw_neg (P : option (Z * Z)) : option (Z * Z) :=
  match P with None => None | Some (x, y) => Some (x, (- y) mod tp) end.

Definition tpt := { P : option (Z * Z) | on_curve P = true }.
Definition mk (P : option (Z * Z)) : tpt :=
  match Sumbool.sumbool_of_bool (on_curve P) with left H => exist _ P H | right _ => exist _ None eq_refl end.
Definition raw_eqb (P Q : option (Z * Z)) : bool :=
  match P, Q with
  | None, None => true
  | Some (x, y), Some (x', y') => (x =? x') && (y =? y')
  | _, _ => false
  end.

Fixpoint range (n : nat) : list Z := match n with O => [] | S k => range k ++ [Z.of_nat k] end.
Definition grid (n : nat) : list (option (Z * Z)) := flat_map (fun x => map (fun y => Some (x, y)) (range n)) (range n).
Definition all_points (n : nat) : list (option (Z * Z)) := None :: filter on_curve (grid n).
(** The multiples 0, 1, ..., 196 of the generator. *)
Fixpoint multiples (n : nat) (P : option (Z * Z)) : list (option (Z * Z)) :=
  match n with O => [] | S k => P :: multiples k (raw_add (Some (0, 6)) P) end.
Definition table : list (option (Z * Z)) := Eval vm_compute in multiples 79 None.
Fixpoint find_idx (P : option (Z * Z)) (l : list (option (Z * Z))) (i : Z) : Z :=
  match l with [] => -1 | Q :: r => if raw_eqb P Q then i else find_idx P r (i + 1) end.
Definition dlog (P : option (Z * Z)) : Z := find_idx P table 0.
Definition entry (k : Z) : option (Z * Z) := nth (Z.to_nat (k mod tn)) table None.

Definition raw_enc (P : option (Z * Z)) : bytes :=
  match P with None => [zb 0] | Some (x, y) => [zb (2 + y mod 2); zb x] end.
Definition raw_dec (s : bytes) : option (option (Z * Z)) := find (fun P => bytes_eqb (raw_enc P) s) table.

Definition toy : ec := {|
  pt := tpt;
  peqb := fun P Q => raw_eqb (proj1_sig P) (proj1_sig Q);
  padd := fun P Q => mk (raw_add (proj1_sig P) (proj1_sig Q));
  pneg := fun P => mk (raw_neg (proj1_sig P));
  pinf := exist _ None eq_refl;
  pgen := mk (Some (0, 6));
  ec_order := tn; ec_p := tp; ec_a := ta; ec_b := tb;
  ec_xy := fun P => proj1_sig P;
  ec_of_xy := fun x y => if on_curve (Some (x, y)) then Some (mk (Some (x, y))) else None;
  ec_enc := fun P => raw_enc (proj1_sig P);
  ec_dec := fun s => match raw_dec s with Some P => Some (mk P) | None => None end |}.

Lemma raw_eqb_eq P Q : raw_eqb P Q = true <-> P = Q.
Proof.
  destruct P as [[x y]|], Q as [[x' y']|]; cbn; try (split; congruence).
  rewrite andb_true_iff, !Z.eqb_eq. split; [intros [-> ->]; reflexivity|intros H; injection H; auto].
Qed.
Lemma tpt_eq (P Q : tpt) : proj1_sig P = proj1_sig Q -> P = Q.
Proof.
  destruct P as [P HP], Q as [Q HQ]. cbn. intros ->. f_equal. apply UIP_dec. apply Bool.bool_dec.
Qed.
Lemma mk_val P : on_curve P = true -> proj1_sig (mk P) = P.
Proof. intros H. unfold mk. destruct (Sumbool.sumbool_of_bool (on_curve P)) as [E|E]; [reflexivity|congruence]. Qed.

Lemma range_in n x : In x (range n) <-> 0 <= x < Z.of_nat n.
Proof.
  induction n as [|n IH]; cbn [range]; [cbn; lia|]. rewrite in_app_iff, IH. cbn [In]. rewrite Nat2Z.inj_succ.
  split; [intros [H|[H|[]]]; lia|]. intros H. destruct (Z.eq_dec x (Z.of_nat n)); [right; left; lia|left; lia].
Qed.
Lemma all_points_in n P : Z.of_nat n = tp -> on_curve P = true -> In P (all_points n).
Proof.
  intros Hn H. destruct P as [[x y]|]; [apply in_cons|apply in_eq]. apply filter_In. split; [|exact H].
  cbn [on_curve] in H. rewrite !andb_true_iff, !Z.leb_le, !Z.ltb_lt in H.
  apply in_flat_map. exists x. split; [apply range_in; lia|]. apply in_map_iff. exists y. split; [reflexivity|apply range_in; lia].
Qed.

(** The whole group structure, checked by computation: every point is in the table of multiples, and addition and
    negation agree with arithmetic modulo 79 on the indices. *)
Lemma check_points : forallb (fun P => (0 <=? dlog P) && (dlog P <? tn) && raw_eqb (entry (dlog P)) P) (all_points 67) = true.
Proof. vm_compute. reflexivity. Qed.
Lemma check_table : forallb (fun k => on_curve (entry k) && (dlog (entry k) =? k)) (range 79) = true.
Proof. vm_compute. reflexivity. Qed.
Lemma check_add : forallb (fun i => forallb (fun j => raw_eqb (raw_add (entry i) (entry j)) (entry (i + j))) (range 79)) (range 79) = true.
Proof. vm_compute. reflexivity. Qed.
Lemma check_neg : forallb (fun i => raw_eqb (raw_neg (entry i)) (entry (- i))) (range 79) = true.
Proof. vm_compute. reflexivity. Qed.
Lemma check_enc : forallb (fun P => match raw_dec (raw_enc P) with Some Q => raw_eqb P Q | None => false end) table = true.
Proof. vm_compute. reflexivity. Qed.

Lemma point_entry (P : tpt) : 0 <= dlog (proj1_sig P) < tn /\ proj1_sig P = entry (dlog (proj1_sig P)).
Proof.
  pose proof check_points as H. rewrite forallb_forall in H. specialize (H _ (all_points_in 67 _ eq_refl (proj2_sig P))).
  rewrite !andb_true_iff, Z.leb_le, Z.ltb_lt, raw_eqb_eq in H. split; [lia|]. symmetry. apply H.
Qed.
Lemma entry_mod k : entry (k mod tn) = entry k.
Proof. unfold entry. rewrite Z.mod_mod by discriminate. reflexivity. Qed.
Lemma tn_range k : In (k mod tn) (range 79).
Proof. apply range_in. pose proof (Z.mod_pos_bound k tn eq_refl). unfold tn in *. lia. Qed.
Lemma entry_curve k : on_curve (entry k) = true.
Proof.
  pose proof check_table as H. rewrite forallb_forall in H. specialize (H _ (tn_range k)). rewrite andb_true_iff in H.
  rewrite entry_mod in H. apply H.
Qed.
Lemma dlog_entry k : dlog (entry k) = k mod tn.
Proof.
  pose proof check_table as H. rewrite forallb_forall in H. specialize (H _ (tn_range k)). rewrite andb_true_iff, Z.eqb_eq in H.
  rewrite entry_mod in H. apply H.
Qed.
Lemma entry_add i j : raw_add (entry i) (entry j) = entry (i + j).
Proof.
  pose proof check_add as H. rewrite forallb_forall in H. specialize (H _ (tn_range i)). cbn beta in H. rewrite forallb_forall in H.
  specialize (H _ (tn_range j)). rewrite raw_eqb_eq, !entry_mod in H. rewrite H, <- entry_mod, <- Z.add_mod by discriminate. apply entry_mod.
Qed.
Lemma entry_neg i : raw_neg (entry i) = entry (- i).
Proof.
  pose proof check_neg as H. rewrite forallb_forall in H. specialize (H _ (tn_range i)). rewrite raw_eqb_eq, entry_mod in H. rewrite H.
  rewrite <- (entry_mod (- (i mod tn))), <- (entry_mod (- i)). f_equal. apply mod_eqmod_iff; [reflexivity|].
  rewrite (eqmod_mod tn i) by reflexivity. reflexivity.
Qed.

Definition te (k : Z) : tpt := mk (entry k).
Lemma te_val k : proj1_sig (te k) = entry k.
Proof. apply mk_val, entry_curve. Qed.
Lemma te_all (P : tpt) : exists k, 0 <= k < tn /\ P = te k.
Proof. destruct (point_entry P) as [H E]. exists (dlog (proj1_sig P)). split; [exact H|]. apply tpt_eq. rewrite te_val. exact E. Qed.
Lemma te_add i j : padd toy (te i) (te j) = te (i + j).
Proof. apply tpt_eq. cbn [padd toy]. rewrite !te_val, entry_add. apply te_val. Qed.
Lemma te_neg i : pneg toy (te i) = te (- i).
Proof. apply tpt_eq. cbn [pneg toy]. rewrite te_val, entry_neg. reflexivity. Qed.
Lemma te_inj i j : te i = te j <-> i mod tn = j mod tn.
Proof.
  split; intros H.
  - rewrite <- !dlog_entry, <- !te_val, H. reflexivity.
  - apply tpt_eq. rewrite !te_val, <- (entry_mod i), <- (entry_mod j), H. reflexivity.
Qed.
Lemma te_0 : te 0 = pinf toy.
Proof. apply tpt_eq. rewrite te_val. vm_compute. reflexivity. Qed.
Lemma te_1 : te 1 = pgen toy.
Proof. apply tpt_eq. rewrite te_val. vm_compute. reflexivity. Qed.
Lemma te_pos n i : Pos.iter_op (padd toy) n (te i) = te (Zpos n * i).
Proof.
  revert i. induction n as [n IH|n IH|]; intros i; cbn [Pos.iter_op].
  - rewrite te_add, IH, te_add. f_equal. lia.
  - rewrite te_add, IH. f_equal. lia.
  - f_equal. lia.
Qed.

Lemma prime_check n : 1 < n -> forallb (fun d => negb (n mod d =? 0)) (map (fun d => d + 2) (range (Z.to_nat (n - 2)))) = true -> prime n.
Proof.
  intros Hn H. apply prime_alt. split; [exact Hn|]. intros d Hd Hdiv. rewrite forallb_forall in H.
  assert (In d (map (fun d => d + 2) (range (Z.to_nat (n - 2))))) as Hin.
  { apply in_map_iff. exists (d - 2). split; [lia|]. apply range_in. lia. }
  specialize (H _ Hin). apply Z.mod_divide in Hdiv; [|lia]. rewrite Hdiv in H. discriminate.
Qed.
Lemma prime_79 : prime 79.
Proof. apply prime_check; [lia|vm_compute; reflexivity]. Qed.
Lemma prime_67 : prime 67.
Proof. apply prime_check; [lia|vm_compute; reflexivity]. Qed.

Theorem toy_laws : ec_laws toy.
Proof.
  constructor.
  - intros P Q. cbn [peqb toy]. rewrite raw_eqb_eq. split; [apply tpt_eq|congruence].
  - intros P Q R. destruct (te_all P) as (i & _ & ->), (te_all Q) as (j & _ & ->), (te_all R) as (k & _ & ->).
    rewrite !te_add. f_equal. lia.
  - intros P Q. destruct (te_all P) as (i & _ & ->), (te_all Q) as (j & _ & ->). rewrite !te_add. f_equal. lia.
  - intros P. destruct (te_all P) as (i & _ & ->). rewrite <- te_0, te_add. f_equal.
  - intros P. destruct (te_all P) as (i & _ & ->). rewrite te_neg, te_add, <- te_0. f_equal. lia.
  - exact prime_79.
  - rewrite <- te_1, <- te_0. cbn [pmul ec_order toy tn]. rewrite te_pos. apply te_inj. reflexivity.
  - rewrite <- te_1, <- te_0, te_inj. discriminate.
  - intros P. destruct (te_all P) as (i & Hi & ->). exists i. rewrite <- te_1. destruct i as [|n|n]; [exact te_0| |lia].
    cbn [pmul]. rewrite te_pos. f_equal. lia.
  - exact prime_67.
  - reflexivity.
  - intros P. cbn [ec_xy pinf toy]. split; [|intros ->; reflexivity]. intros H. apply tpt_eq. exact H.
  - intros x y P. cbn [ec_of_xy ec_xy toy]. split.
    + destruct (on_curve (Some (x, y))) eqn:E; [|discriminate]. intros H. injection H as <-. apply mk_val, E.
    + intros H. pose proof (proj2_sig P) as HP. cbn beta in HP. rewrite H in HP. rewrite HP. apply (f_equal (@Some tpt)). apply tpt_eq. rewrite mk_val by exact HP.
      symmetry. exact H.
  - intros P x y H. cbn [ec_xy toy] in H. pose proof (proj2_sig P) as HP. cbn beta in HP. rewrite H in HP. cbn [on_curve] in HP.
    rewrite !andb_true_iff, !Z.leb_le, !Z.ltb_lt, Z.eqb_eq in HP. cbn [ec_p ec_a ec_b toy]. unfold t_rhs in HP. lia.
  - intros x y Hx Hy H. cbn [ec_of_xy toy ec_p ec_a ec_b] in *.
    assert (E : on_curve (Some (x, y)) = true).
    { cbn [on_curve]. rewrite !andb_true_iff, !Z.leb_le, !Z.ltb_lt, Z.eqb_eq. unfold t_rhs. lia. }
    rewrite E. eexists. reflexivity.
  - intros P _. cbn [ec_dec ec_enc toy]. destruct (te_all P) as (i & Hi & ->). rewrite te_val.
    pose proof check_enc as H. rewrite forallb_forall in H.
    assert (Hin : In (entry i) table).
    { unfold entry. apply nth_In. pose proof (Z.mod_pos_bound i tn eq_refl). unfold tn in *. change (length table) with 79%nat. lia. }
    specialize (H _ Hin). destruct (raw_dec (raw_enc (entry i))) as [Q|]; [|discriminate]. rewrite raw_eqb_eq in H. rewrite <- H. reflexivity.
Qed.
