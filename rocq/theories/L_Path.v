(** Lemmas about path joining. *)
From Verif Require Import Base M_Csv S_Csv.

Definition not_slash (b : byte) : bool := negb (byte_eqb b x2f).

Lemma byte_eqb_slash b : byte_eqb b slash = true <-> b = x2f.
Proof. apply byte_eqb_eq. Qed.

(** Segments of a concatenation when a slash separates the parts. *)
Lemma segments_acc_slash s t cur : segments_acc cur (s ++ x2f :: t) = segments_acc cur s ++ segments t.
Proof.
  revert cur. induction s as [|b s IH]; intros cur; cbn [app segments_acc].
  - change (byte_eqb x2f x2f) with true. cbn match. destruct cur; reflexivity.
  - destruct (byte_eqb b x2f); [|apply IH]. destruct cur; rewrite IH; reflexivity.
Qed.

Lemma segments_slash s t : segments (s ++ x2f :: t) = segments s ++ segments t.
Proof. apply segments_acc_slash. Qed.

Lemma segments_cons_slash t : segments (x2f :: t) = segments t.
Proof. reflexivity. Qed.

Lemma segments_snoc_slash s : segments (s ++ [x2f]) = segments s.
Proof. rewrite segments_slash. apply app_nil_r. Qed.

Lemma ends_slash_spec s : ends_slash s = true <-> exists t, s = t ++ [x2f].
Proof.
  unfold ends_slash. split.
  - destruct (rev s) as [|b r] eqn:E; [discriminate|]. intros Hb. apply byte_eqb_eq in Hb. subst b.
    exists (rev r). rewrite <- (rev_involutive s), E. reflexivity.
  - intros [t ->]. rewrite rev_app_distr. cbn [rev app]. reflexivity.
Qed.

(** The state of the loop after some components. *)
Definition join_inv (paths : list bytes) (st : bytes * bool) : Prop :=
  let (out, trailing) := st in
  trailing = ends_slash out /\
  (out = [] <-> concat paths = []) /\
  segments out = flat_map segments paths /\
  filter not_slash out = filter not_slash (concat paths) /\
  ((exists b t, out = b :: t /\ exists b' t', concat paths = b' :: t' /\ b = b') \/ out = []) /\
  (length out <= (length (filter (fun p => negb (length p =? 0)%nat) paths) - 1) + length (concat paths))%nat /\
  ends_slash out = ends_slash (concat paths) /\
  (Forall (fun p => ~ double_slash p) paths -> ~ double_slash out).

Lemma app_cons_not_nil' {A} (l : list A) x r : l ++ x :: r <> [].
Proof. destruct l; discriminate. Qed.

Lemma double_slash_app a b : double_slash (a ++ b) -> double_slash a \/ double_slash b \/
  (ends_slash a = true /\ exists t, b = x2f :: t).
Proof.
  intros (u & v & E). cbn [app] in E.
  assert (H : exists w, (a = u ++ w /\ w ++ b = x2f :: x2f :: v) \/ (u = a ++ w /\ b = w ++ x2f :: x2f :: v)).
  { clear -E. revert u E. induction a as [|x a IH]; intros u E.
    - exists u. right. cbn in E. auto.
    - destruct u as [|y u].
      + exists (x :: a). left. auto.
      + cbn in E. injection E as -> E. destruct (IH u E) as [w [[-> H]|[-> H]]]; exists w; [left|right]; auto. }
  destruct H as [w [[-> H]|[-> ->]]].
  - destruct w as [|w1 w].
    + right; left. exists [], v. exact H.
    + injection H as -> H. destruct w as [|w2 w].
      * right; right. cbn in H. split; [apply ends_slash_spec; exists u; reflexivity|exists v; exact H].
      * injection H as -> H. left. exists u, w. reflexivity.
  - right; left. exists w, v. reflexivity.
Qed.

Lemma double_slash_tl b t : double_slash t -> double_slash (b :: t).
Proof. intros (u & v & ->). exists (b :: u), v. reflexivity. Qed.

Lemma filter_snoc {A} (p : A -> bool) l x : filter p (l ++ [x]) = filter p l ++ (if p x then [x] else []).
Proof. rewrite filter_app. cbn. destruct (p x); reflexivity. Qed.

Lemma concat_snoc (l : list bytes) (x : bytes) : concat (l ++ [x]) = concat l ++ x.
Proof. rewrite concat_app. cbn. rewrite app_nil_r. reflexivity. Qed.

Lemma flat_map_snoc {A B} (f : A -> list B) l x : flat_map f (l ++ [x]) = flat_map f l ++ f x.
Proof. rewrite flat_map_app. cbn. rewrite app_nil_r. reflexivity. Qed.

Lemma ends_slash_app s b t : ends_slash (s ++ b :: t) = ends_slash (b :: t).
Proof.
  unfold ends_slash. rewrite rev_app_distr. destruct (rev (b :: t)) as [|x r] eqn:E; [|reflexivity].
  apply (f_equal (@length byte)) in E. rewrite rev_length in E. discriminate.
Qed.

Lemma concat_app_b (l m : list bytes) : concat (l ++ m) = concat l ++ concat m.
Proof. apply concat_app. Qed.

Lemma join_step_inv total paths st p :
  join_inv paths st -> (length (paths ++ [p]) - 1 + length (concat (paths ++ [p])) <= total)%nat ->
  exists st', join_step total (Ok st) p = Ok st' /\ join_inv (paths ++ [p]) st'.
Proof.
  destruct st as [out tr]. intros (Ht & He & Hs & Hf & Hh & Hl & Hen & Hd) Hb. subst tr. cbn [join_step bind].
  rewrite app_length, concat_snoc, app_length in Hb. cbn [length] in Hb.
  assert (Hfl : (length (filter (fun p => negb (length p =? 0)%nat) paths) <= length paths)%nat).
  { clear. induction paths as [|q l IH]; cbn; [lia|]. destruct (length q =? 0)%nat; cbn; lia. }
  destruct p as [|b rest].
  - eexists. split; [reflexivity|]. unfold join_inv. rewrite concat_snoc, app_nil_r, flat_map_snoc, filter_snoc.
    cbn [segments segments_acc]. rewrite !app_nil_r. cbn [length negb Nat.eqb app].
    repeat split; try tauto. intros H. apply Hd. apply Forall_app in H. tauto.
  - set (path := b :: rest). fold path in Hb.
    assert (Hout0 : out <> [] -> filter (fun p => negb (length p =? 0)%nat) paths <> []).
    { intros Ho En. apply Ho, He. clear -En. induction paths as [|q l IH]; [reflexivity|]. cbn in *.
      destruct q; cbn in En; [apply IH; exact En|discriminate]. }
    destruct (byte_eqb b slash) eqn:Eb.
    + apply byte_eqb_slash in Eb. subst b. destruct (ends_slash out) eqn:Es.
      * (* skip the leading slash of the component *)
        pose proof Es as Es'. apply ends_slash_spec in Es'. destruct Es' as [o Eo].
        set (out2 := out ++ rest). assert (Ho2 : out2 <> []) by (unfold out2; rewrite Eo; destruct o; discriminate).
        assert (Hlen : (length out2 <= total)%nat) by (unfold out2, path in *; rewrite app_length; cbn [length] in *; lia).
        apply Nat.leb_le in Hlen. rewrite Hlen. exists (out2, ends_slash out2).
        split; [destruct out2; [contradiction|reflexivity]|]. unfold join_inv.
        assert (Hcp : concat (paths ++ [path]) <> []) by (rewrite concat_snoc; unfold path; apply app_cons_not_nil').
        repeat split; try tauto.
        -- unfold out2. rewrite flat_map_snoc. unfold path. rewrite segments_cons_slash, <- Hs, Eo, <- app_assoc.
           cbn [app]. rewrite segments_slash, segments_snoc_slash. reflexivity.
        -- unfold out2. rewrite concat_snoc, !filter_app, Hf. reflexivity.
        -- left. destruct Hh as [(c & t & -> & c' & t' & Ec & Ecc)|Hn]; [|subst out; destruct o; discriminate].
           exists c, (t ++ rest). split; [reflexivity|]. exists c', (t' ++ path). rewrite concat_snoc, Ec. auto.
        -- unfold out2. rewrite concat_snoc, !app_length, filter_snoc, app_length. unfold path. cbn [length Nat.eqb negb]. lia.
        -- rewrite concat_snoc. unfold path. rewrite ends_slash_app. unfold out2. destruct rest as [|r1 rest].
           ++ rewrite app_nil_r, Es. reflexivity.
           ++ rewrite ends_slash_app. symmetry. apply (ends_slash_app [x2f]).
        -- intros Hp Hdd. apply Forall_app in Hp. destruct Hp as [Hp1 Hp2]. inversion Hp2 as [|? ? Hp3 _]; subst.
           apply double_slash_app in Hdd. destruct Hdd as [Hdd|[Hdd|[_ [t ->]]]].
           ++ exact (Hd Hp1 Hdd).
           ++ apply Hp3. apply double_slash_tl. exact Hdd.
           ++ apply Hp3. exists [], t. reflexivity.
      * set (out2 := out ++ path). assert (Ho2 : out2 <> []) by (unfold out2, path; apply app_cons_not_nil').
        assert (Hlen : (length out2 <= total)%nat) by (unfold out2; rewrite app_length; lia).
        apply Nat.leb_le in Hlen. rewrite Hlen. exists (out2, ends_slash out2).
        split; [destruct out2; [contradiction|reflexivity]|]. unfold join_inv.
        assert (Hcp : concat (paths ++ [path]) <> []) by (rewrite concat_snoc; unfold path; apply app_cons_not_nil').
        repeat split; try tauto.
        -- unfold out2, path. rewrite flat_map_snoc, segments_slash, segments_cons_slash, Hs. reflexivity.
        -- unfold out2. rewrite concat_snoc, !filter_app, Hf. reflexivity.
        -- left. destruct Hh as [(c & t & -> & c' & t' & Ec & Ecc)|Hn].
           ++ exists c, (t ++ path). split; [reflexivity|]. exists c', (t' ++ path). rewrite concat_snoc, Ec. auto.
           ++ exists x2f, rest. unfold out2. rewrite Hn. split; [reflexivity|]. exists x2f, rest.
              rewrite concat_snoc. rewrite (proj1 He Hn). auto.
        -- unfold out2. rewrite concat_snoc, !app_length, filter_snoc, app_length. unfold path. cbn [length Nat.eqb negb]. lia.
        -- rewrite concat_snoc. unfold out2, path. rewrite !ends_slash_app. reflexivity.
        -- intros Hp Hdd. apply Forall_app in Hp. destruct Hp as [Hp1 Hp2]. inversion Hp2 as [|? ? Hp3 _]; subst.
           apply double_slash_app in Hdd. destruct Hdd as [Hdd|[Hdd|[Hq _]]].
           ++ exact (Hd Hp1 Hdd).
           ++ exact (Hp3 Hdd).
           ++ congruence.
    + assert (Hb1 : b <> x2f) by (intros ->; discriminate).
      destruct (negb (ends_slash out) && negb (length out =? 0)%nat) eqn:Ec.
      * apply andb_true_iff in Ec. destruct Ec as [Es Ez]. apply negb_true_iff in Es, Ez. apply Nat.eqb_neq in Ez.
        assert (Ho : out <> []) by (intros ->; apply Ez; reflexivity).
        set (out2 := (out ++ [slash]) ++ path). assert (Ho2 : out2 <> []) by (unfold out2, path; apply app_cons_not_nil').
        assert (Hpl : (1 <= length paths)%nat).
        { destruct paths; [|cbn; lia]. exfalso. apply Ho, He. reflexivity. }
        pose proof (Hout0 Ho) as Hout1.
        assert (Hfl1 : (1 <= length (filter (fun p : list byte => negb (length p =? 0)) paths))%nat).
        { destruct (filter (fun p : list byte => negb (length p =? 0)%nat) paths) eqn:Eq; [exfalso; apply Hout1; reflexivity|cbn; lia]. }
        assert (Hlen : (length out2 <= total)%nat) by (unfold out2; rewrite !app_length; cbn [length]; lia).
        apply Nat.leb_le in Hlen. rewrite Hlen. exists (out2, ends_slash out2).
        split; [destruct out2; [contradiction|reflexivity]|]. unfold join_inv.
        assert (Hcp : concat (paths ++ [path]) <> []) by (rewrite concat_snoc; unfold path; apply app_cons_not_nil').
        repeat split; try tauto.
        -- unfold out2. rewrite flat_map_snoc, <- app_assoc. cbn [app]. unfold slash. rewrite segments_slash, Hs. reflexivity.
        -- unfold out2. rewrite concat_snoc, !filter_app, Hf. cbn. rewrite app_nil_r. reflexivity.
        -- left. destruct Hh as [(c & t & -> & c' & t' & Ec & Ecc)|Hn]; [|contradiction].
           exists c, (t ++ [slash] ++ path). split; [unfold out2; rewrite <- app_assoc; reflexivity|].
           exists c', (t' ++ path). rewrite concat_snoc, Ec. auto.
        -- unfold out2. rewrite concat_snoc, !app_length, filter_snoc, app_length. unfold path. cbn [length Nat.eqb negb]. lia.
        -- rewrite concat_snoc. unfold out2, path. rewrite !ends_slash_app. reflexivity.
        -- intros Hp Hdd. apply Forall_app in Hp. destruct Hp as [Hp1 Hp2]. inversion Hp2 as [|? ? Hp3 _]; subst.
           unfold out2 in Hdd. apply double_slash_app in Hdd. destruct Hdd as [Hdd|[Hdd|[_ [t Et]]]].
           ++ apply double_slash_app in Hdd. destruct Hdd as [Hdd|[(u & v & Hdd)|[Hq _]]].
              ** exact (Hd Hp1 Hdd).
              ** apply (f_equal (@length byte)) in Hdd. rewrite !app_length in Hdd. cbn [length] in Hdd. lia.
              ** congruence.
           ++ exact (Hp3 Hdd).
           ++ unfold path in Et. congruence.
      * set (out2 := out ++ path). assert (Ho2 : out2 <> []) by (unfold out2, path; apply app_cons_not_nil').
        assert (Hlen : (length out2 <= total)%nat) by (unfold out2; rewrite app_length; lia).
        apply Nat.leb_le in Hlen. rewrite Hlen. exists (out2, ends_slash out2).
        split; [destruct out2; [contradiction|reflexivity]|]. unfold join_inv.
        assert (Hcp : concat (paths ++ [path]) <> []) by (rewrite concat_snoc; unfold path; apply app_cons_not_nil').
        assert (Hoe : out = [] \/ exists o, out = o ++ [x2f]).
        { destruct out as [|o1 o]; [left; reflexivity|]. right. apply ends_slash_spec.
          destruct (ends_slash (o1 :: o)); [reflexivity|discriminate Ec]. }
        repeat split; try tauto.
        -- unfold out2. rewrite flat_map_snoc, <- Hs. destruct Hoe as [->|[o ->]]; [reflexivity|].
           rewrite <- app_assoc. cbn [app]. rewrite segments_slash, segments_snoc_slash. reflexivity.
        -- unfold out2. rewrite concat_snoc, !filter_app, Hf. reflexivity.
        -- left. destruct Hh as [(c & t & -> & c' & t' & Ecc & Ecd)|Hn].
           ++ exists c, (t ++ path). split; [reflexivity|]. exists c', (t' ++ path). rewrite concat_snoc, Ecc. auto.
           ++ exists b, rest. unfold out2. rewrite Hn. split; [reflexivity|]. exists b, rest.
              rewrite concat_snoc. rewrite (proj1 He Hn). auto.
        -- unfold out2. rewrite concat_snoc, !app_length, filter_snoc, app_length. unfold path. cbn [length Nat.eqb negb]. lia.
        -- rewrite concat_snoc. unfold out2, path. rewrite !ends_slash_app. reflexivity.
        -- intros Hp Hdd. apply Forall_app in Hp. destruct Hp as [Hp1 Hp2]. inversion Hp2 as [|? ? Hp3 _]; subst.
           apply double_slash_app in Hdd. destruct Hdd as [Hdd|[Hdd|[_ [t Et]]]].
           ++ exact (Hd Hp1 Hdd).
           ++ exact (Hp3 Hdd).
           ++ unfold path in Et. congruence.
Qed.

Lemma join_loop_inv total rest : forall done st, join_inv done st ->
  (length (done ++ rest) - 1 + length (concat (done ++ rest)) <= total)%nat ->
  exists st', fold_left (join_step total) rest (Ok st) = Ok st' /\ join_inv (done ++ rest) st'.
Proof.
  induction rest as [|p rest IH]; intros done st Hi Hb.
  - exists st. rewrite app_nil_r. split; [reflexivity|exact Hi].
  - destruct (join_step_inv total done st p Hi) as (st1 & E & Hi1).
    + rewrite concat_snoc, !app_length in *. rewrite concat_app_b, app_length in Hb. cbn [concat length] in *.
      rewrite app_length in Hb. lia.
    + cbn [fold_left]. rewrite E. destruct (IH (done ++ [p]) st1 Hi1) as (st2 & E2 & Hi2).
      * rewrite <- app_assoc. exact Hb.
      * exists st2. rewrite <- app_assoc in Hi2. auto.
Qed.

Lemma total_size paths n : fold_left (fun n (p : bytes) => n + length p)%nat paths n = (n + length (concat paths))%nat.
Proof. revert n. induction paths as [|p l IH]; intros n; cbn [fold_left concat length]; [lia|]. rewrite IH, app_length. lia. Qed.

Lemma join_path_inv paths : exists out, join_path paths = Ok out /\ join_inv paths (out, ends_slash out).
Proof.
  assert (H0 : join_inv [] ([], false)).
  { unfold join_inv. cbn. repeat split; auto. intros _ (u & v & E). destruct u; discriminate. }
  unfold join_path. destruct paths as [|p l].
  - exists []. split; [reflexivity|]. exact H0.
  - destruct (join_loop_inv (length (p :: l) - 1 + length (concat (p :: l))) (p :: l) [] _ H0) as ((out & t) & E & Hi).
    { cbn [app]. lia. }
    cbn zeta. rewrite total_size. match goal with |- context [fold_left ?f (p :: l) ?s] => replace (fold_left f (p :: l) s) with (Ok (out, t)) by (symmetry; exact E) end. cbn [bind]. exists out. split; [reflexivity|]. pose proof Hi as [Ht _]. cbn [app] in Hi. rewrite Ht in Hi. exact Hi.
Qed.
