(** Lemmas about line files. *)
From Verif Require Import Base M_RecordIO S_RecordIO.
From Coq Require Import Arith.

Lemma fgets_app n f p rest : fgets n f = (p, rest) -> f = p ++ rest.
Proof.
  revert f p rest; induction n as [|k IH]; intros f p rest; destruct f as [|b f]; cbn [fgets];
    try (intros [= <- <-]; reflexivity).
  destruct (byte_eqb b x0a); [intros [= <- <-]; reflexivity|].
  destruct (fgets k f) as [s r] eqn:E. intros [= <- <-]. cbn [app]. f_equal. apply IH; exact E.
Qed.

Lemma fgets_piece n f p rest : (1 <= n)%nat -> f <> [] -> fgets n f = (p, rest) -> piece n p rest.
Proof.
  revert f p rest; induction n as [|k IH]; intros f p rest Hn Hf; [lia|].
  destruct f as [|b f]; [congruence|]. cbn [fgets].
  destruct (byte_eqb b x0a) eqn:Eb.
  - apply byte_eqb_eq in Eb. subst b. intros [= <- <-]. unfold piece. split; [discriminate|].
    split; [cbn; lia|]. split.
    + intros [|? a] c; [intros [= <-]; reflexivity|]. cbn. intros [= _ H]. destruct a; discriminate.
    + left. exists []; reflexivity.
  - assert (Hb : b <> x0a) by (intros ->; rewrite byte_eqb_refl in Eb; discriminate).
    destruct (fgets k f) as [s r] eqn:E. intros [= <- <-].
    destruct k as [|k].
    { assert (s = [] /\ r = f) as [-> ->] by (destruct f; cbn in E; injection E as <- <-; auto).
      split; [discriminate|]. split; [cbn; lia|]. split.
      - intros [|? a] c; cbn; [congruence|]. intros [= _ H]. destruct a; discriminate.
      - right; left; reflexivity. }
    destruct f as [|b' f].
    { cbn in E. injection E as <- <-. split; [discriminate|]. split; [cbn; lia|]. split.
      - intros [|? a] c; cbn; [congruence|]. intros [= _ H]. destruct a; discriminate.
      - right; right; reflexivity. }
    destruct (IH (b' :: f) s r ltac:(lia) ltac:(discriminate) E) as (_ & Hl & Hnl & Hend).
    split; [discriminate|]. split; [cbn [length]; lia|]. split.
    + intros [|? a] c; cbn; [congruence|]. intros [= -> H]. eapply Hnl; exact H.
    + destruct Hend as [[a ->]|[H|H]]; [left; exists (b :: a); reflexivity|right; left; cbn [length]; lia|auto].
Qed.

Lemma fgets_shrinks n f p rest : (1 <= n)%nat -> f <> [] -> fgets n f = (p, rest) -> (length rest < length f)%nat.
Proof.
  intros Hn Hf H. destruct (fgets_piece n f p rest Hn Hf H) as (Hp & _).
  apply fgets_app in H. subst f. rewrite app_length. destruct p; [congruence|]. cbn; lia.
Qed.

Lemma c_str_before s : before_nul s (c_str s).
Proof.
  induction s as [|b s IH]; cbn [c_str]; [constructor|].
  destruct (byte_eqb b x00) eqn:E.
  - apply byte_eqb_eq in E. subst b. constructor.
  - constructor; [|exact IH]. intros ->. rewrite byte_eqb_refl in E. discriminate.
Qed.

Lemma rev_cons_eq {A} (s : list A) x r : rev s = x :: r -> s = rev r ++ [x].
Proof. intros H. rewrite <- (rev_involutive s), H. reflexivity. Qed.

Lemma chomp_reported p s : before_nul p s -> reported p (chomp s).
Proof.
  intros Hb. unfold chomp. destruct (rev s) as [|nl rest] eqn:E.
  - apply (f_equal (@rev byte)) in E. rewrite rev_involutive in E. cbn in E. subst s.
    apply rep_plain; [exact Hb|]. intros t H. destruct t; discriminate.
  - apply rev_cons_eq in E. destruct (byte_eqb nl x0a) eqn:En.
    + apply byte_eqb_eq in En. subst nl. destruct rest as [|cr rest].
      * subst s. apply rep_nl; [exact Hb|]. intros t H. destruct t; discriminate.
      * destruct (byte_eqb cr x0d) eqn:Ec.
        -- apply byte_eqb_eq in Ec. subst cr. apply rep_crnl. subst s. cbn [rev] in Hb.
           rewrite <- app_assoc in Hb. exact Hb.
        -- apply rep_nl; [subst s; exact Hb|]. intros t H. cbn [rev] in H. apply app_inj_tail in H as [_ H].
           subst cr. rewrite byte_eqb_refl in Ec. discriminate.
    + apply rep_plain; [exact Hb|]. intros t H. subst s. apply app_inj_tail in H as [_ H]. subst nl.
      rewrite byte_eqb_refl in En. discriminate.
Qed.

Lemma before_nul_fun p s t : before_nul p s -> before_nul p t -> s = t.
Proof.
  intros H; revert t; induction H as [|s|b s u Hb _ IH]; intros t Ht; inversion Ht; subst; try congruence.
  f_equal. apply IH. assumption.
Qed.

Lemma reported_fun p s t : reported p s -> reported p t -> s = t.
Proof.
  intros H1 H2.
  assert (A2 : forall (s t : bytes), s ++ [x0d; x0a] = t ++ [x0d; x0a] -> s = t).
  { intros a b. intros H. apply app_inv_tail in H. exact H. }
  destruct H1 as [p s H1|p s H1 N1|p s H1 N1]; inversion H2 as [? ? E|? ? E N2|? ? E N2]; subst;
    pose proof (before_nul_fun _ _ _ H1 E) as Q.
  - apply A2; exact Q.
  - exfalso. apply (N2 s). replace [x0d; x0a] with ([x0d] ++ [x0a]) in Q by reflexivity.
    rewrite app_assoc in Q. apply app_inj_tail in Q as [Q _]. auto.
  - exfalso. apply (N2 (s ++ [x0d])). rewrite <- app_assoc. auto.
  - exfalso. apply (N1 t). replace [x0d; x0a] with ([x0d] ++ [x0a]) in Q by reflexivity.
    rewrite app_assoc in Q. apply app_inj_tail in Q as [Q _]. auto.
  - apply app_inj_tail in Q as [Q _]. exact Q.
  - exfalso. apply (N2 s). auto.
  - exfalso. apply (N1 (t ++ [x0d])). rewrite <- app_assoc. auto.
  - exfalso. apply (N1 t). auto.
  - exact Q.
Qed.

Lemma read_lines_pieces lm k f : (2 <= lm)%nat -> (length f < k)%nat ->
  exists ps ls, pieces (lm - 1) f ps /\ Forall2 reported ps ls /\ read_lines_loop lm k f = (ls, Ok tt).
Proof.
  revert f; induction k as [|k IH]; intros f Hlm Hk; [lia|].
  cbn [read_lines_loop]. destruct f as [|b f]; cbn [f_has_more].
  - exists [], []. repeat split; constructor.
  - unfold read_line. destruct (fgets (lm - 1) (b :: f)) as [p rest] eqn:E.
    pose proof (fgets_shrinks (lm - 1) (b :: f) p rest ltac:(lia) ltac:(discriminate) E) as Hs.
    destruct (IH rest Hlm ltac:(lia)) as (ps & ls & Hp & Hr & Hl).
    exists (p :: ps), (chomp (c_str p) :: ls). rewrite Hl. split; [|split; [|reflexivity]].
    + rewrite (fgets_app _ _ _ _ E). constructor; [|exact Hp].
      apply (fgets_piece _ (b :: f)); [lia|discriminate|exact E].
    + constructor; [|exact Hr]. apply chomp_reported, c_str_before.
Qed.

Lemma fgets_line n l f : ~ In x0a l -> (length l < n)%nat -> fgets n (l ++ x0a :: f) = (l ++ [x0a], f).
Proof.
  revert n; induction l as [|b l IH]; intros n Hi Hl; (destruct n as [|n]; [cbn in Hl; lia|]); cbn [app fgets].
  - rewrite byte_eqb_refl. reflexivity.
  - destruct (byte_eqb b x0a) eqn:E; [apply byte_eqb_eq in E; subst; exfalso; apply Hi; left; reflexivity|].
    rewrite IH; [reflexivity|intros H; apply Hi; right; exact H|cbn in Hl; lia].
Qed.

Lemma c_str_no_nul s : ~ In x00 s -> c_str s = s.
Proof.
  induction s as [|b s IH]; intros H; cbn [c_str]; [reflexivity|].
  destruct (byte_eqb b x00) eqn:E; [apply byte_eqb_eq in E; subst; exfalso; apply H; left; reflexivity|].
  rewrite IH; [reflexivity|intros Hi; apply H; right; exact Hi].
Qed.

Lemma chomp_line l : (forall t, l <> t ++ [x0d]) -> chomp (l ++ [x0a]) = l.
Proof.
  intros H. unfold chomp. rewrite rev_app_distr. cbn [rev app]. rewrite byte_eqb_refl.
  destruct (rev l) as [|cr r] eqn:E.
  - apply (f_equal (@rev byte)) in E. rewrite rev_involutive in E. cbn in E. auto.
  - pose proof (rev_cons_eq _ _ _ E) as E2. destruct (byte_eqb cr x0d) eqn:Ec.
    + apply byte_eqb_eq in Ec. subst cr. exfalso. apply (H (rev r)). exact E2.
    + rewrite E2. reflexivity.
Qed.

Lemma read_line_good lm l f : good_line (lm - 1) l -> read_line lm (l ++ x0a :: f) = Ok (l, f).
Proof.
  intros (H1 & H2 & H3 & H4). unfold read_line.
  destruct (l ++ x0a :: f) as [|b t] eqn:E; [destruct l; discriminate|]. rewrite <- E.
  rewrite fgets_line by assumption. rewrite c_str_no_nul.
  - rewrite chomp_line by assumption. reflexivity.
  - intros Hi. apply in_app_iff in Hi as [Hi|[Hi|[]]]; [auto|discriminate].
Qed.

Lemma read_write_lines_loop lm ls k : Forall (good_line (lm - 1)) ls -> (length (write_lines ls) < k)%nat ->
  read_lines_loop lm k (write_lines ls) = (ls, Ok tt).
Proof.
  intros H; revert k; induction H as [|l ls Hl _ IH]; intros k Hk; (destruct k as [|k]; [lia|]);
    cbn [read_lines_loop write_lines flat_map]; [reflexivity|].
  fold (write_lines ls). rewrite <- app_assoc. cbn [app].
  assert (Hm : f_has_more (l ++ x0a :: write_lines ls) = true) by (destruct l; reflexivity).
  rewrite Hm, read_line_good by exact Hl. rewrite IH; [reflexivity|].
  cbn [write_lines flat_map] in Hk. fold (write_lines ls) in Hk. rewrite !app_length in Hk. cbn [length] in Hk. lia.
Qed.

Lemma LINE_MAX_ge : (2 <= LINE_MAX)%nat.
Proof. unfold LINE_MAX. lia. Qed.

Lemma read_write_lines ls : Forall (good_line (LINE_MAX - 1)) ls -> read_lines (write_lines ls) = (ls, Ok tt).
Proof. intros H. apply read_write_lines_loop; [exact H|lia]. Qed.

Lemma read_lines_char f : exists ps ls, pieces (LINE_MAX - 1) f ps /\ Forall2 reported ps ls /\ read_lines f = (ls, Ok tt).
Proof. apply read_lines_pieces; [apply LINE_MAX_ge|lia]. Qed.

(** The decomposition into pieces is unique. *)
Lemma piece_unique cap p1 r1 p2 r2 : piece cap p1 r1 -> piece cap p2 r2 -> p1 ++ r1 = p2 ++ r2 -> p1 = p2 /\ r1 = r2.
Proof.
  assert (W : forall p1 r1 p2 r2, piece cap p1 r1 -> piece cap p2 r2 -> p1 ++ r1 = p2 ++ r2 ->
            (length p1 <= length p2)%nat -> p1 = p2 /\ r1 = r2).
  { clear. intros p1 r1 p2 r2 (N1 & L1 & I1 & E1) (N2 & L2 & I2 & E2) H Hl.
    assert (exists d, p2 = p1 ++ d /\ r1 = d ++ r2) as (d & -> & ->).
    { exists (skipn (length p1) p2). clear -H Hl. revert p2 H Hl; induction p1 as [|a p1 IH]; intros p2 H Hl.
      - cbn in *. auto.
      - destruct p2 as [|b p2]; [cbn in Hl; lia|]. cbn in H. injection H as -> H. cbn [length] in Hl.
        destruct (IH p2 H ltac:(lia)) as [A B]. cbn [skipn length app]. split; [f_equal; exact A|exact B]. }
    destruct d as [|x d]; [rewrite app_nil_r; cbn; auto|exfalso].
    destruct E1 as [[a ->]|[E|E]].
    - rewrite <- app_assoc in I2. cbn [app] in I2. specialize (I2 a (x :: d) eq_refl). discriminate.
    - rewrite app_length in L2. cbn in L2. lia.
    - cbn in E. discriminate. }
  intros H1 H2 H. destruct (le_lt_dec (length p1) (length p2)) as [Hl|Hl].
  - apply W; assumption.
  - destruct (W p2 r2 p1 r1 H2 H1 (eq_sym H) ltac:(lia)) as [-> ->]. auto.
Qed.

Lemma pieces_unique cap f ps1 ps2 : pieces cap f ps1 -> pieces cap f ps2 -> ps1 = ps2.
Proof.
  intros H1; revert ps2; induction H1 as [|p rest ps Hp Hps IH]; intros ps2 H2.
  - inversion H2 as [|p rest ps Hp _ E]; [reflexivity|]. exfalso. destruct Hp as (N & _).
    apply app_eq_nil in E as [-> _]. congruence.
  - inversion H2 as [E|p' rest' ps' Hp' Hps' E].
    + exfalso. destruct Hp as (N & _). destruct p; [congruence|discriminate].
    + symmetry in E. destruct (piece_unique cap p rest p' rest' Hp Hp' E) as [<- <-]. f_equal. apply IH; exact Hps'.
Qed.
