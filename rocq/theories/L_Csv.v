(** Lemmas about CSV lines and dataset files. *)
From Coq Require Import Permutation.
From Verif Require Import Base M_Dec L_Dec M_RecordIO M_BigNum L_Lines M_Csv S_Csv.

Lemma white_is_space b : white b -> is_space b = true /\ bz b < 128.
Proof. unfold white. cbn. intros H. repeat destruct H as [<-|H]; try (split; reflexivity); destruct H. Qed.

Lemma is_space_white b : is_space b = true -> white b.
Proof.
  unfold is_space, white. intros H.
  assert (Hc : bz b = 32 \/ bz b = 9 \/ bz b = 10 \/ bz b = 11 \/ bz b = 12 \/ bz b = 13).
  { destruct (Z.eqb_spec (bz b) 32), (Z.leb_spec 9 (bz b)), (Z.leb_spec (bz b) 13); cbn in H; try discriminate; lia. }
  cbn. rewrite <- (zb_bz b).
  destruct Hc as [E|[E|[E|[E|[E|E]]]]]; rewrite E; [left|right;left|do 2 right;left|do 3 right;left|do 4 right;left|do 5 right;left]; reflexivity.
Qed.

Lemma c_isspace_white b : white b -> c_isspace b = Ok true.
Proof. intros H. apply white_is_space in H. unfold c_isspace. destruct H as [-> H]. apply Z.ltb_lt in H. rewrite H. reflexivity. Qed.

Lemma c_isspace_other b : ascii b -> ~ white b -> c_isspace b = Ok false.
Proof.
  intros Ha Hw. unfold c_isspace, ascii in *. apply Z.ltb_lt in Ha. rewrite Ha.
  destruct (is_space b) eqn:E; [apply is_space_white in E; contradiction|reflexivity].
Qed.

Lemma skip_space_app ws s : Forall white ws -> skip_space (ws ++ s) = skip_space s.
Proof.
  induction 1 as [|b ws Hb _ IH]; [reflexivity|]. cbn [app skip_space]. rewrite (c_isspace_white _ Hb). exact IH.
Qed.

Lemma skip_space_stop b s : ascii b -> ~ white b -> skip_space (b :: s) = Ok (b :: s).
Proof. intros H1 H2. cbn [skip_space]. rewrite (c_isspace_other _ H1 H2). reflexivity. Qed.

Lemma doubled_escape v : doubled v (escape_body v).
Proof.
  induction v as [|b v IH]; cbn [escape_body flat_map]; [constructor|].
  destruct (byte_eqb b quote) eqn:E.
  - apply byte_eqb_eq in E. subst. constructor. exact IH.
  - constructor; [|exact IH]. intros ->. discriminate.
Qed.

Lemma byte_eqb_neq a b : a <> b -> byte_eqb a b = false.
Proof. intros H. destruct (byte_eqb a b) eqn:E; [apply byte_eqb_eq in E; contradiction|reflexivity]. Qed.

Lemma quoted_doubled v body rest : doubled v body -> (forall t, rest <> x22 :: t) ->
  quoted (body ++ x22 :: rest) = (v, rest).
Proof.
  intros H Hr. induction H as [|v s _ IH|b v s Hb _ IH].
  - cbn [app quoted]. change (byte_eqb x22 quote) with true. cbn match.
    destruct rest as [|b' r]; [reflexivity|].
    rewrite byte_eqb_neq; [reflexivity|]. intros ->. exact (Hr r eq_refl).
  - cbn [app quoted]. change (byte_eqb x22 quote) with true. cbn match. rewrite IH. reflexivity.
  - cbn [app quoted]. rewrite (byte_eqb_neq b quote Hb). rewrite IH. reflexivity.
Qed.

(** An unterminated quoted value extends to the end of the line. *)
Lemma quoted_unterminated v body : doubled v body -> quoted body = (v, []).
Proof.
  induction 1 as [|v s _ IH|b v s Hb _ IH]; [reflexivity| |].
  - cbn [quoted]. change (byte_eqb x22 quote) with true. cbn match. rewrite IH. reflexivity.
  - cbn [quoted]. rewrite (byte_eqb_neq b quote Hb), IH. reflexivity.
Qed.

Definition comma_tail (tail : bytes) : Prop := tail = [] \/ exists t, tail = x2c :: t.

Lemma from_comma_app s tail : ~ In x2c s -> comma_tail tail -> from_comma (s ++ tail) = tail.
Proof.
  intros Hs Ht. induction s as [|b s IH]; cbn [app from_comma].
  - destruct Ht as [->|[t ->]]; reflexivity.
  - rewrite byte_eqb_neq by (intros ->; apply Hs; left; reflexivity). apply IH. intros H; apply Hs; right; exact H.
Qed.

Lemma upto_comma_app s tail : ~ In x2c s -> comma_tail tail -> upto_comma (s ++ tail) = s.
Proof.
  intros Hs Ht. induction s as [|b s IH]; cbn [app upto_comma].
  - destruct Ht as [->|[t ->]]; reflexivity.
  - rewrite byte_eqb_neq by (intros ->; apply Hs; left; reflexivity). f_equal. apply IH. intros H; apply Hs; right; exact H.
Qed.

Lemma white_no_comma ws : Forall white ws -> ~ In x2c ws.
Proof. intros H Hi. rewrite Forall_forall in H. apply H in Hi. unfold white in Hi. cbn in Hi. intuition discriminate. Qed.

Lemma trim_trailing_ok v ws : Forall white ws -> Forall ascii v -> (forall b t, v = t ++ [b] -> ~ white b) ->
  trim_trailing (v ++ ws) = Ok v.
Proof.
  intros Hw Ha Hl. unfold trim_trailing. rewrite rev_app_distr, skip_space_app by (apply Forall_rev; exact Hw).
  destruct (rev v) as [|b t] eqn:E.
  - cbn [skip_space bind rev]. apply (f_equal (@rev byte)) in E. rewrite rev_involutive in E. subst. reflexivity.
  - assert (Ev : v = rev t ++ [b]) by (rewrite <- (rev_involutive v), E; reflexivity).
    rewrite skip_space_stop.
    + cbn [bind]. rewrite <- E, rev_involutive. reflexivity.
    + rewrite Ev in Ha. apply Forall_app in Ha. destruct Ha as [_ Ha]. inversion Ha; assumption.
    + exact (Hl b (rev t) Ev).
Qed.

Lemma next_column_cell r v tail : cell r v -> comma_tail tail -> next_column (r ++ tail) = Ok (v, tail).
Proof.
  intros Hc Ht. destruct Hc as [ws v body junk Hw Hd Hj Hq|ws v ws' Hw Hw' Ha Hc Hf Hl]; unfold next_column.
  - rewrite <- app_assoc, skip_space_app by exact Hw. cbn [app].
    rewrite skip_space_stop; [|vm_compute; reflexivity|unfold white; cbn; intuition discriminate].
    cbn [bind]. change (byte_eqb x22 quote) with true. cbn match.
    rewrite <- app_assoc. cbn [app]. rewrite (quoted_doubled v body (junk ++ tail) Hd).
    + rewrite from_comma_app by assumption. reflexivity.
    + intros t E. destruct junk as [|b j]; [|cbn in E; injection E as -> _; exact (Hq j eq_refl)].
      cbn in E. destruct Ht as [->|[t' ->]]; discriminate.
  - rewrite <- app_assoc, skip_space_app by exact Hw. rewrite <- app_assoc.
    destruct v as [|b v].
    + cbn [app]. rewrite skip_space_app by exact Hw'.
      destruct Ht as [->|[t ->]]; [reflexivity|].
      rewrite skip_space_stop; [|vm_compute; reflexivity|unfold white; cbn; intuition discriminate].
      cbn [bind upto_comma from_comma]. change (byte_eqb x2c quote) with false. change (byte_eqb x2c comma) with true.
      reflexivity.
    + destruct (Hf b v eq_refl) as [Hb1 Hb2]. assert (Hab : ascii b) by (inversion Ha; assumption).
      cbn [app]. rewrite skip_space_stop by assumption. cbn [bind].
      rewrite byte_eqb_neq by exact Hb2.
      change (b :: v ++ ws' ++ tail) with ((b :: v) ++ ws' ++ tail). rewrite app_assoc.
      assert (Hn : ~ In x2c ((b :: v) ++ ws')).
      { rewrite in_app_iff. intros [H|H]; [exact (Hc H)|exact (white_no_comma _ Hw' H)]. }
      rewrite upto_comma_app, from_comma_app by assumption.
      rewrite trim_trailing_ok by assumption. reflexivity.
Qed.

Lemma cell_nil_val v : cell [] v -> v = [].
Proof.
  intros H. remember ([] : bytes) as s eqn:E in H. destruct H as [ws v body junk _ _ _ _|ws v ws' _ _ _ _ _ _].
  - destruct ws; discriminate.
  - apply app_eq_nil in E. destruct E as [_ E]. apply app_eq_nil in E. destruct E as [E _]. exact E.
Qed.

Lemma split_from_cells rs vs k : Forall2 cell rs vs -> join_commas rs <> [] -> (length (join_commas rs) < k)%nat ->
  split_from k (join_commas rs) = Ok vs.
Proof.
  intros H. revert k. induction H as [|r v rs vs Hc H IH]; intros k Hn Hk; [contradiction|].
  destruct k as [|k]; [lia|]. destruct rs as [|r2 rs].
  - cbn [join_commas] in *. inversion H; subst. destruct r as [|b r]; [contradiction|]. cbn [split_from].
    pose proof (next_column_cell _ _ [] Hc (or_introl eq_refl)) as E. rewrite app_nil_r in E. rewrite E. reflexivity.
  - change (join_commas (r :: r2 :: rs)) with (r ++ x2c :: join_commas (r2 :: rs)) in *.
    assert (E : next_column (r ++ x2c :: join_commas (r2 :: rs)) = Ok (v, x2c :: join_commas (r2 :: rs))).
    { apply next_column_cell; [exact Hc|right; eexists; reflexivity]. }
    destruct (r ++ x2c :: join_commas (r2 :: rs)) as [|b0 s0] eqn:Es; [contradiction|].
    cbn [split_from]. rewrite E. cbn [bind].
    destruct (join_commas (r2 :: rs)) as [|b1 s1] eqn:Ej.
    + destruct rs as [|r3 rs]; [|destruct r2; discriminate Ej].
      cbn [join_commas] in Ej. subst r2. inversion H as [|? v2 ? vs2 Hc2 Hr2]; subst.
      apply cell_nil_val in Hc2. subst v2. inversion Hr2; subst. reflexivity.
    + rewrite IH; [reflexivity|discriminate|].
      rewrite <- Es in Hk. rewrite app_length in Hk. cbn [length] in *. lia.
Qed.

Lemma split_cells rs vs : Forall2 cell rs vs -> rs <> [[]] -> ~ In x00 (join_commas rs) ->
  split_csv_line (join_commas rs) = Ok vs.
Proof.
  intros H Hne H0. unfold split_csv_line. rewrite c_str_no_nul by exact H0.
  destruct rs as [|r rs].
  - inversion H; subst. reflexivity.
  - destruct (list_eq_dec byte_eq_dec (join_commas (r :: rs)) []) as [E|Hn].
    + destruct rs as [|r2 rs]; [cbn in E; subst; contradiction|]. destruct r; discriminate E.
    + apply split_from_cells; [exact H|exact Hn|lia].
Qed.

Lemma cell_escape v : cell (escape_for_csv v) v.
Proof.
  unfold escape_for_csv. change (quote :: escape_body v ++ [quote]) with ([] ++ x22 :: escape_body v ++ x22 :: []).
  apply cell_quoted; [constructor|apply doubled_escape|intros []|discriminate].
Qed.

Lemma in_escape_body b v : In b (escape_body v) <-> In b v.
Proof.
  unfold escape_body. rewrite in_flat_map. split.
  - intros (x & Hx & Hb). destruct (byte_eqb x quote) eqn:E.
    + apply byte_eqb_eq in E. subst x. cbn in Hb. destruct Hb as [<-|[<-|[]]]; exact Hx.
    + destruct Hb as [<-|[]]. exact Hx.
  - intros H. exists b. split; [exact H|]. destruct (byte_eqb b quote) eqn:E; [apply byte_eqb_eq in E; subst; left; reflexivity|left; reflexivity].
Qed.

Lemma in_escape b v : b <> x22 -> (In b (escape_for_csv v) <-> In b v).
Proof.
  intros Hb. unfold escape_for_csv. cbn [In]. rewrite in_app_iff, in_escape_body. cbn [In]. unfold quote.
  intuition congruence.
Qed.

Lemma in_join_commas b fs : b <> x2c -> (In b (join_commas fs) <-> exists f, In f fs /\ In b f).
Proof.
  intros Hb. induction fs as [|f fs IH].
  - cbn. split; [intros []|intros (? & [] & _)].
  - destruct fs as [|f2 fs].
    + cbn [join_commas]. split; [intros H; exists f; split; [left; reflexivity|exact H]|intros (g & [<-|[]] & H); exact H].
    + change (join_commas (f :: f2 :: fs)) with (f ++ x2c :: join_commas (f2 :: fs)).
      rewrite in_app_iff. change (In b (x2c :: join_commas (f2 :: fs))) with (x2c = b \/ In b (join_commas (f2 :: fs))). rewrite IH. split.
      * intros [H|[H|(g & Hg & H)]]; [exists f|congruence|exists g]; split; auto; [left; reflexivity|right; exact Hg].
      * intros (g & [<-|Hg] & H); [left; exact H|right; right; exists g; auto].
Qed.

Lemma Forall2_map_l {A B} (P : B -> A -> Prop) (f : A -> B) l : (forall x, P (f x) x) -> Forall2 P (map f l) l.
Proof. intros H. induction l; cbn; constructor; auto. Qed.

Lemma split_escaped fs : Forall (fun f => ~ In x00 f) fs -> split_csv_line (join_commas (map escape_for_csv fs)) = Ok fs.
Proof.
  intros H0. apply split_cells.
  - apply Forall2_map_l. apply cell_escape.
  - destruct fs as [|f fs]; discriminate.
  - rewrite in_join_commas by discriminate. intros (f & Hf & Hi). apply in_map_iff in Hf.
    destruct Hf as (g & <- & Hg). rewrite in_escape in Hi by discriminate. rewrite Forall_forall in H0. exact (H0 g Hg Hi).
Qed.

Lemma c_str_app_nul a b : ~ In x00 a -> c_str (a ++ x00 :: b) = a.
Proof.
  intros H. induction a as [|x a IH]; [reflexivity|]. cbn [app c_str].
  destruct (byte_eqb x x00) eqn:E.
  - apply byte_eqb_eq in E. subst. exfalso. apply H. left. reflexivity.
  - f_equal. apply IH. intros Hi; apply H; right; exact Hi.
Qed.

Lemma escape_body_app a b : escape_body (a ++ b) = escape_body a ++ escape_body b.
Proof. apply flat_map_app. Qed.

Lemma split_nul a b : ~ In x00 a -> split_csv_line (escape_for_csv (a ++ x00 :: b)) = Ok [a].
Proof.
  intros H. unfold split_csv_line, escape_for_csv. rewrite escape_body_app.
  change (escape_body (x00 :: b)) with (x00 :: escape_body b).
  assert (E : c_str (quote :: (escape_body a ++ x00 :: escape_body b) ++ [quote]) = quote :: escape_body a).
  { rewrite <- app_assoc. change (quote :: escape_body a ++ (x00 :: escape_body b) ++ [quote]) with
      ((quote :: escape_body a) ++ x00 :: (escape_body b ++ [quote])).
    apply c_str_app_nul. intros [Hq|Hi]; [discriminate|]. rewrite in_escape_body in Hi. exact (H Hi). }
  rewrite E. cbn [split_from]. unfold next_column. rewrite skip_space_stop; [|vm_compute; reflexivity|unfold white; cbn; intuition discriminate].
  cbn [bind]. change (byte_eqb quote quote) with true. cbn match.
  rewrite (quoted_unterminated a _ (doubled_escape a)). reflexivity.
Qed.

(** Totality on ASCII lines. *)
Lemma skip_space_total s : Forall ascii s -> exists a r, skip_space s = Ok r /\ s = a ++ r.
Proof.
  induction 1 as [|b s Hb _ IH]; [exists [], []; auto|]. cbn [skip_space]. unfold c_isspace.
  apply Z.ltb_lt in Hb. rewrite Hb. cbn [bind]. destruct (is_space b).
  - destruct IH as (a & r & E & ->). exists (b :: a), r. auto.
  - exists [], (b :: s). auto.
Qed.

Lemma from_comma_suffix s : exists a, s = a ++ from_comma s.
Proof.
  induction s as [|b s [a IH]]; [exists []; reflexivity|]. cbn [from_comma].
  destruct (byte_eqb b comma); [exists []; reflexivity|]. exists (b :: a). cbn. congruence.
Qed.

Lemma quoted_suffix s : exists a, s = a ++ snd (quoted s).
Proof.
  assert (H : forall n s, (length s < n)%nat -> exists a, s = a ++ snd (quoted s)).
  { induction n as [|n IH]; intros t Hl; [lia|]. destruct t as [|b t]; [exists []; reflexivity|]. cbn [quoted length] in *.
    destruct (byte_eqb b quote).
    - destruct t as [|b' t]; [exists [b]; reflexivity|]. destruct (byte_eqb b' quote).
      + cbn [length] in Hl. destruct (IH t) as [a Ha]; [lia|]. destruct (quoted t). cbn in *. exists (b :: b' :: a). cbn. congruence.
      + exists [b]. reflexivity.
    - destruct (IH t) as [a Ha]; [lia|]. destruct (quoted t). cbn in *. exists (b :: a). cbn. congruence. }
  apply (H (S (length s))). lia.
Qed.

Lemma upto_comma_ascii s : Forall ascii s -> Forall ascii (upto_comma s).
Proof. induction 1; cbn; [constructor|]. destruct (byte_eqb x comma); constructor; assumption. Qed.

Lemma next_column_total s : Forall ascii s -> exists v a r, next_column s = Ok (v, r) /\ s = a ++ r.
Proof.
  intros H. unfold next_column. destruct (skip_space_total s H) as (a & s1 & E & ->). rewrite E. cbn [bind].
  destruct s1 as [|b t].
  - exists [], a, []. auto.
  - destruct (byte_eqb b quote).
    + destruct (quoted_suffix t) as [a1 Ea]. destruct (quoted t) as [v r]. cbn in Ea. subst t.
      destruct (from_comma_suffix r) as [a2 Ea]. exists v, (a ++ b :: a1 ++ a2), (from_comma r). split; [reflexivity|].
      rewrite <- app_assoc. cbn. rewrite <- app_assoc. congruence.
    + apply Forall_app in H. destruct H as [_ H]. pose proof (upto_comma_ascii _ H) as Hu.
      unfold trim_trailing. destruct (skip_space_total (rev (upto_comma (b :: t)))) as (a1 & r & E1 & _).
      { apply Forall_rev. exact Hu. }
      rewrite E1. cbn [bind]. destruct (from_comma_suffix (b :: t)) as [a2 Ea].
      exists (rev r), (a ++ a2), (from_comma (b :: t)). split; [reflexivity|]. rewrite <- app_assoc. congruence.
Qed.

Lemma split_from_total k s : Forall ascii s -> (length s < k)%nat -> exists vs, split_from k s = Ok vs.
Proof.
  revert s. induction k as [|k IH]; intros s H Hl; [lia|]. destruct s as [|b s]; [exists []; reflexivity|].
  cbn [split_from]. destruct (next_column_total _ H) as (v & a & r & E & Es). rewrite E. cbn [bind].
  destruct r as [|b1 r]; [eexists; reflexivity|]. destruct r as [|b2 r]; [eexists; reflexivity|].
  destruct (IH (b2 :: r)) as [vs Ev].
  - rewrite Es in H. apply Forall_app in H. destruct H as [_ H]. inversion H; assumption.
  - apply (f_equal (@length byte)) in Es. rewrite app_length in Es. cbn [length] in *. lia.
  - rewrite Ev. eexists; reflexivity.
Qed.

Lemma c_str_ascii s : Forall ascii s -> Forall ascii (c_str s).
Proof. induction 1; cbn; [constructor|]. destruct (byte_eqb x x00); constructor; assumption. Qed.

Lemma split_total line : Forall ascii line -> exists vs, split_csv_line line = Ok vs.
Proof. intros H. apply split_from_total; [apply c_str_ascii; exact H|lia]. Qed.

(** ** Dataset files *)

Lemma getlines_acc_line cur l f : ~ In x0a l -> getlines_acc cur (l ++ x0a :: f) = (rev cur ++ l) :: getlines_acc [] f.
Proof.
  revert cur. induction l as [|b l IH]; intros cur H; cbn [app getlines_acc].
  - change (byte_eqb x0a newline) with true. cbn match. rewrite app_nil_r. reflexivity.
  - rewrite byte_eqb_neq by (intros ->; apply H; left; reflexivity).
    rewrite IH by (intros Hi; apply H; right; exact Hi). cbn [rev]. rewrite <- app_assoc. reflexivity.
Qed.

Lemma getlines_text ls : Forall (fun l => ~ In x0a l) ls -> getlines (text_of ls) = ls.
Proof.
  unfold getlines. induction 1 as [|l ls Hl _ IH]; [reflexivity|].
  cbn [text_of flat_map]. rewrite <- app_assoc. cbn [app]. rewrite getlines_acc_line by exact Hl. cbn [rev app].
  f_equal. exact IH.
Qed.

(** Reading lines: the text is exactly the lines, each ended by a newline except possibly the last. *)
Lemma getlines_spec f : exists last,
  (f = text_of (getlines f) /\ last = []) \/
  (last <> [] /\ ~ In x0a last /\ exists ls, getlines f = ls ++ [last] /\ f = text_of ls ++ last).
Proof.
  assert (H : forall f cur, (exists ls, getlines_acc cur f = ls /\ rev cur ++ f = text_of ls) \/
    (exists ls last, last <> [] /\ getlines_acc cur f = ls ++ [last] /\ rev cur ++ f = text_of ls ++ last /\ (~ In x0a cur -> ~ In x0a last))).
  { clear. induction f as [|b f IH]; intros cur.
    - cbn [getlines_acc]. rewrite app_nil_r. destruct cur as [|c cur].
      + left. exists []. auto.
      + right. exists [], (rev (c :: cur)). split; [|split; [reflexivity|split; [reflexivity|]]].
        * cbn. destruct (rev cur); discriminate.
        * rewrite <- in_rev. auto.
    - cbn [getlines_acc]. destruct (byte_eqb b newline) eqn:E.
      + apply byte_eqb_eq in E. subst b. destruct (IH []) as [(ls & E1 & E2)|(ls & last & H1 & E1 & E2 & H4)].
        * left. exists (rev cur :: ls). rewrite E1. split; [reflexivity|]. cbn in E2. cbn [text_of flat_map].
          rewrite <- app_assoc. cbn. subst. rewrite E2 at 1. reflexivity.
        * right. exists (rev cur :: ls), last. rewrite E1. split; [exact H1|]. split; [reflexivity|]. cbn in E2.
          split; [|intros _; apply H4; intros []]. cbn [text_of flat_map]. rewrite <- !app_assoc. cbn. subst f. reflexivity.
      + destruct (IH (b :: cur)) as [(ls & E1 & E2)|(ls & last & H1 & E1 & E2 & H4)]; cbn [rev] in E2; rewrite <- app_assoc in E2; cbn [app] in E2.
        * left. exists ls. auto.
        * right. exists ls, last. repeat split; auto. intros Hc. apply H4. intros [->|Hi]; [discriminate|exact (Hc Hi)]. }
  unfold getlines. destruct (H f []) as [(ls & E1 & E2)|(ls & last & H1 & E1 & E2 & H4)]; cbn in E2.
  - exists []. left. rewrite E1. auto.
  - exists last. right. split; [exact H1|]. split; [apply H4; intros []|]. exists ls. auto.
Qed.

Lemma getlines_no_newline f : Forall (fun l => ~ In x0a l) (getlines f).
Proof.
  unfold getlines. assert (H : forall f cur, ~ In x0a cur -> Forall (fun l => ~ In x0a l) (getlines_acc cur f)).
  { clear. induction f as [|b f IH]; intros cur Hc; cbn [getlines_acc].
    - destruct cur; constructor; [|constructor]. rewrite <- in_rev. exact Hc.
    - destruct (byte_eqb b newline) eqn:E.
      + constructor; [rewrite <- in_rev; exact Hc|]. apply IH. intros [].
      + apply IH. intros [->|Hi]; [discriminate|exact (Hc Hi)]. }
  apply H. intros [].
Qed.

Lemma flat_map_text {A} (f : A -> bytes) l : flat_map (fun x => f x ++ [newline]) l = text_of (map f l).
Proof. induction l as [|x l IH]; [reflexivity|]. cbn. unfold newline in *. rewrite IH. reflexivity. Qed.

Lemma server_roundtrip ids : Forall storable ids ->
  read_server_dataset (Some (flat_map (fun id => escape_for_csv id ++ [newline]) ids)) = Ok ids.
Proof.
  intros H. unfold read_server_dataset. rewrite flat_map_text, getlines_text.
  - induction H as [|id ids [H1 H2] _ IH]; [reflexivity|]. cbn [map mapM]. rewrite IH.
    unfold parse_server_line. pose proof (split_escaped [id] ltac:(repeat constructor; exact H1)) as E.
    cbn [map join_commas] in E. rewrite E. reflexivity.
  - apply Forall_map. eapply Forall_impl; [|exact H]. intros id [_ H2]. cbn beta. rewrite in_escape by discriminate. exact H2.
Qed.

Lemma dec_digits_ascii n b : 0 <= n -> In b (dec n) -> is_digit b = true.
Proof. intros Hn Hi. destruct (dec_nonneg n Hn) as (_ & H & _). rewrite forallb_forall in H. exact (H b Hi). Qed.

Lemma cell_dec n : 0 <= n -> cell (dec n) (dec n).
Proof.
  intros Hn. assert (Hd : forall b, In b (dec n) -> is_digit b = true) by (intros; eapply dec_digits_ascii; eassumption).
  assert (Hw : forall b, is_digit b = true -> ~ white b).
  { intros b H Hw. apply digit_not_space in H. apply white_is_space in Hw. destruct Hw. congruence. }
  replace (dec n) with ([] ++ dec n ++ []) at 1 by (cbn; rewrite app_nil_r; reflexivity).
  apply cell_plain; [constructor|constructor|..].
  - apply Forall_forall. intros b Hb. specialize (Hd b Hb). unfold is_digit in Hd. unfold ascii.
    apply andb_true_iff in Hd. destruct Hd as [_ Hd]. apply Z.leb_le in Hd. lia.
  - intros Hb. specialize (Hd _ Hb). discriminate.
  - intros b t E. split; [apply Hw; apply Hd; rewrite E; left; reflexivity|]. intros ->.
    assert (Hb : In x22 (dec n)) by (rewrite E; left; reflexivity). specialize (Hd _ Hb). discriminate.
  - intros b t E. apply Hw, Hd. rewrite E. apply in_app_iff. right. left. reflexivity.
Qed.

Lemma client_line id n : storable id -> 0 <= n < 2 ^ 63 ->
  parse_client_line (escape_for_csv id ++ [comma] ++ dec n) = Ok (id, n).
Proof.
  intros [H0 _] Hn. unfold parse_client_line.
  change (escape_for_csv id ++ [comma] ++ dec n) with (join_commas [escape_for_csv id; dec n]).
  rewrite (split_cells [escape_for_csv id; dec n] [id; dec n]).
  - cbn [bind]. rewrite simple_atoi64_dec by exact Hn. destruct (Z.ltb_spec n 0); [lia|reflexivity].
  - constructor; [apply cell_escape|constructor; [apply cell_dec; lia|constructor]].
  - discriminate.
  - rewrite in_join_commas by discriminate. intros (f & [<-|[<-|[]]] & Hi).
    + rewrite in_escape in Hi by discriminate. exact (H0 Hi).
    + apply dec_digits_ascii in Hi; [discriminate|lia].
Qed.

Lemma client_roundtrip rows : Forall (fun r => storable (fst r) /\ 0 <= snd r < 2 ^ 63) rows ->
  read_client_dataset (Some (flat_map (fun iv => escape_for_csv (fst iv) ++ [comma] ++ dec (snd iv) ++ [newline]) rows))
  = Ok (map fst rows, map snd rows).
Proof.
  intros H. unfold read_client_dataset.
  assert (E : flat_map (fun iv => escape_for_csv (fst iv) ++ [comma] ++ dec (snd iv) ++ [newline]) rows =
              text_of (map (fun iv => escape_for_csv (fst iv) ++ [comma] ++ dec (snd iv)) rows)).
  { rewrite <- flat_map_text. apply flat_map_ext. intros iv. rewrite <- !app_assoc. reflexivity. }
  rewrite E, getlines_text.
  - assert (Em : mapM parse_client_line (map (fun iv => escape_for_csv (fst iv) ++ [comma] ++ dec (snd iv)) rows) = Ok rows).
    { clear E. induction H as [|[id n] rows [H1 H2] _ IH]; [reflexivity|]. cbn [map mapM fst snd] in *.
      rewrite client_line by assumption. cbn [bind]. cbn [app] in IH. cbn [app]. rewrite IH. reflexivity. }
    rewrite Em. reflexivity.
  - apply Forall_map. eapply Forall_impl; [|exact H]. intros [id n] [[_ H1] H2]. cbn [fst snd] in *.
    rewrite !in_app_iff, in_escape by discriminate. intros [Hi|[[Hi|[]]|Hi]]; [exact (H1 Hi)|discriminate|].
    apply dec_digits_ascii in Hi; [discriminate|lia].
Qed.

(** mapM stops at the first failing element. *)
Lemma mapM_first_failure {A B} (f : A -> outcome B) l :
  (exists ys, mapM f l = Ok ys /\ Forall2 (fun x y => f x = Ok y) l ys) \/
  (exists l1 x l2 ys, l = l1 ++ x :: l2 /\ Forall2 (fun x y => f x = Ok y) l1 ys /\ is_ok (f x) = false /\
     is_ok (mapM f l) = false /\ (forall c, mapM f l = Err c <-> f x = Err c) /\
     (mapM f l = UB <-> f x = UB) /\ (mapM f l = Crash <-> f x = Crash) /\ (mapM f l = Diverge <-> f x = Diverge)).
Proof.
  induction l as [|x l IH].
  - left. exists []. split; [reflexivity|constructor].
  - cbn [mapM]. destruct (f x) as [y|c| | |] eqn:E; cbn [bind].
    2-5: right; exists [], x, l, []; rewrite E; repeat split; try constructor; try discriminate; try congruence; auto.
    destruct IH as [(ys & Em & H)|(l1 & z & l2 & ys & -> & H & Hz & Hm & H1 & H2 & H3 & H4)].
    + left. rewrite Em. exists (y :: ys). split; [reflexivity|]. constructor; assumption.
    + right. exists (x :: l1), z, l2, (y :: ys). split; [reflexivity|]. split; [constructor; assumption|]. split; [exact Hz|].
      destruct (mapM f (l1 ++ z :: l2)) as [w|c| | |]; [discriminate|..]; cbn [bind];
        (split; [reflexivity|]); repeat split; try discriminate; intros Hx.
      all: try (apply H1 in Hx; discriminate).
      all: try (apply H2 in Hx; discriminate).
      all: try (apply H3 in Hx; discriminate).
      all: try (apply H4 in Hx; discriminate).
      all: try reflexivity.
      all: try (apply H1; congruence).
      all: try (apply H2; congruence).
      all: try (apply H3; congruence).
      all: try (apply H4; congruence).
Qed.

Lemma Forall2_cons_inv' {A B} (P : A -> B -> Prop) x l ys : Forall2 P (x :: l) ys -> exists y ys', ys = y :: ys' /\ P x y /\ Forall2 P l ys'.
Proof. intros H. inversion H; subst. eauto. Qed.

Lemma Forall2_impl {A B} (P Q : A -> B -> Prop) l m : (forall x y, P x y -> Q x y) -> Forall2 P l m -> Forall2 Q l m.
Proof. intros H. induction 1; constructor; auto. Qed.

(** ** Value columns *)

Lemma drop_white ws s : Forall white ws -> drop_space (ws ++ s) = drop_space s.
Proof. induction 1 as [|b ws Hb _ IH]; [reflexivity|]. cbn [app drop_space]. apply white_is_space in Hb. destruct Hb as [-> _]. exact IH. Qed.

Lemma drop_space_spec s : exists ws, Forall white ws /\ s = ws ++ drop_space s /\ (forall b t, drop_space s = b :: t -> is_space b = false).
Proof.
  induction s as [|b s IH]; [exists []; repeat split; [constructor|discriminate]|]. cbn [drop_space]. destruct (is_space b) eqn:E.
  - destruct IH as (ws & H1 & H2 & H3). exists (b :: ws). split; [constructor; [apply is_space_white, E|exact H1]|]. split; [cbn; rewrite <- H2; reflexivity|exact H3].
  - exists []. split; [constructor|]. split; [reflexivity|]. intros c t Eq. congruence.
Qed.

Lemma strip_space_spec s : exists ws ws', Forall white ws /\ Forall white ws' /\ s = ws ++ strip_space s ++ ws'.
Proof.
  destruct (drop_space_spec s) as (ws & H1 & H2 & _). destruct (drop_space_spec (rev (drop_space s))) as (ws' & G1 & G2 & _).
  exists ws, (rev ws'). split; [exact H1|]. split; [apply Forall_rev, G1|]. rewrite H2 at 1. f_equal. unfold strip_space.
  rewrite <- (rev_involutive (drop_space s)) at 1. rewrite G2 at 1. rewrite rev_app_distr. reflexivity.
Qed.

Lemma strip_white ws s ws' : Forall white ws -> Forall white ws' ->
  (forall b t, s = b :: t -> is_space b = false) -> (forall b t, s = t ++ [b] -> is_space b = false) -> s <> [] -> strip_space (ws ++ s ++ ws') = s.
Proof.
  intros H1 H2 H3 H4 Hs. unfold strip_space. rewrite drop_white by exact H1.
  assert (E : drop_space (s ++ ws') = s ++ ws'). { destruct s as [|b t]; [congruence|]. cbn [app drop_space]. rewrite (H3 b t eq_refl). reflexivity. }
  rewrite E, rev_app_distr, drop_white by (apply Forall_rev, H2). destruct (exists_last Hs) as (t & b & Et). rewrite Et, rev_unit. cbn [drop_space].
  rewrite (H4 b t Et). change (b :: rev t) with ([b] ++ rev t). rewrite rev_app_distr, rev_involutive. reflexivity.
Qed.

Lemma is_digit_range b : is_digit b = true <-> 48 <= bz b <= 57.
Proof. unfold is_digit. rewrite andb_true_iff, !Z.leb_le. reflexivity. Qed.

Lemma decimal_spec ds n : decimal ds n <-> ds <> [] /\ forallb is_digit ds = true /\ dec_value ds = n.
Proof.
  split.
  - induction 1 as [b Hb|ds n b _ (H1 & H2 & H3) Hb].
    + split; [discriminate|]. cbn [forallb]. apply is_digit_range in Hb. rewrite Hb. split; reflexivity.
    + split; [destruct ds; discriminate|]. rewrite forallb_app, H2. cbn [forallb andb]. apply is_digit_range in Hb. rewrite Hb. split; [reflexivity|].
      rewrite dec_value_app, H3. unfold dec_value. cbn [fold_left length Z.of_nat]. change (10 ^ Z.pos (Pos.of_succ_nat 0)) with 10. lia.
  - revert n. induction ds as [|b ds IH] using rev_ind; intros n (H1 & H2 & H3); [congruence|].
    rewrite forallb_app in H2. cbn [forallb] in H2. apply andb_prop in H2. destruct H2 as [H2 Hb]. rewrite andb_true_r in Hb. apply is_digit_range in Hb.
    rewrite dec_value_app in H3. unfold dec_value at 2 in H3. cbn [fold_left length Z.of_nat] in H3. change (10 ^ Z.pos (Pos.of_succ_nat 0)) with 10 in H3.
    destruct ds as [|a ds].
    + change (dec_value []) with 0 in H3. replace n with (bz b - 48) by lia. apply decimal_one, Hb.
    + replace n with (10 * dec_value (a :: ds) + (bz b - 48)) by lia. apply decimal_more; [|exact Hb]. apply IH. repeat split; [discriminate|exact H2].
Qed.

(** The reader accepts exactly the value columns of the specification. *)
Lemma atoi_value_text v n : simple_atoi64 v = Some n /\ 0 <= n <-> value_text v n.
Proof.
  unfold simple_atoi64, value_text. split.
  - intros [E Hn]. destruct (strip_space_spec v) as (ws & ws' & H1 & H2 & Ev). destruct (strip_space v) as [|b s]; [discriminate|].
    assert (Body : forall (neg : bool) t, match t with [] => None | _ => if forallb is_digit t then let w := if neg then - dec_value t else dec_value t in
        if (- 2 ^ 63 <=? w) && (w <? 2 ^ 63) then Some w else None else None end = Some n ->
        decimal t (dec_value t) /\ n = (if neg then - dec_value t else dec_value t) /\ n < 2 ^ 63).
    { intros neg t Et. destruct t as [|a t]; [discriminate|]. destruct (forallb is_digit (a :: t)) eqn:Ed; [|discriminate]. cbn zeta in Et.
      destruct ((- 2 ^ 63 <=? (if neg then - dec_value (a :: t) else dec_value (a :: t))) && ((if neg then - dec_value (a :: t) else dec_value (a :: t)) <? 2 ^ 63)) eqn:B; [|discriminate].
      apply andb_prop in B. destruct B as [_ B]. apply Z.ltb_lt in B. split; [apply decimal_spec; repeat split; [discriminate|exact Ed]|]. split; congruence || (injection Et as <-; exact B). }
    destruct (byte_eqb b x2d) eqn:Em; [|destruct (byte_eqb b x2b) eqn:Ep].
    + apply byte_eqb_eq in Em. subst b. destruct (Body true s E) as (D & -> & B). exists ws, [x2d], s, ws', (dec_value s). split; [exact Ev|]. repeat split; auto.
    + apply byte_eqb_eq in Ep. subst b. destruct (Body false s E) as (D & -> & B). exists ws, [x2b], s, ws', (dec_value s). split; [exact Ev|]. repeat split; auto.
    + destruct (Body false (b :: s) E) as (D & -> & B). exists ws, [], (b :: s), ws', (dec_value (b :: s)). split; [exact Ev|]. repeat split; auto.
  - intros (ws & sign & ds & ws' & m & -> & H1 & H2 & D & Sg & B). apply decimal_spec in D. destruct D as (D1 & D2 & D3).
    destruct (exists_last D1) as (dt & dl & Edl). assert (Hl : is_digit dl = true) by (rewrite Edl in D2; eapply forallb_last; exact D2).
    assert (Hh : forall b t, ds = b :: t -> is_digit b = true) by (intros b t ->; cbn in D2; apply andb_prop in D2; tauto).
    assert (Hv : forall w, n = w -> (- 2 ^ 63 <=? w) && (w <? 2 ^ 63) = true) by (intros w <-; apply andb_true_intro; rewrite Z.leb_le, Z.ltb_lt; lia).
    rewrite (app_assoc sign). rewrite strip_white; try assumption.
    + split; [|lia]. destruct Sg as [[[-> | ->] En]|[-> En]]; cbn [app].
      * destruct ds as [|b t]; [congruence|]. specialize (Hh b t eq_refl).
        assert (byte_eqb b x2d = false) as -> by (destruct (byte_eqb b x2d) eqn:Q; [apply byte_eqb_eq in Q; subst; discriminate|reflexivity]).
        assert (byte_eqb b x2b = false) as -> by (destruct (byte_eqb b x2b) eqn:Q; [apply byte_eqb_eq in Q; subst; discriminate|reflexivity]).
        rewrite D2. cbn zeta. rewrite Hv by congruence. congruence.
      * change (byte_eqb x2b x2d) with false. change (byte_eqb x2b x2b) with true. cbv iota. destruct ds as [|b t]; [congruence|]. rewrite D2. cbn zeta. rewrite Hv by congruence. congruence.
      * change (byte_eqb x2d x2d) with true. cbv iota. destruct ds as [|b t]; [congruence|]. rewrite D2. cbn zeta. rewrite Hv by congruence. congruence.
    + intros b t E. destruct Sg as [[[-> | ->] _]|[-> _]]; cbn [app] in E; [apply digit_not_space; eapply Hh; exact E| |]; injection E as <- _; reflexivity.
    + intros b t E. rewrite Edl, app_assoc in E. apply app_inj_tail in E. destruct E as [_ <-]. apply digit_not_space, Hl.
    + intros E. apply app_eq_nil in E. tauto.
Qed.
