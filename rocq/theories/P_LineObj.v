(** C92: line readers and writers as objects, with calls made after a failure. *)
From Verif Require Import Base M_RecordIO S_RecordIO L_RecordIO L_Lines M_Shard L_Shard M_File S_File M_RecordObj S_RecordObj L_RecordObj M_LineObj.

(** A reader that will deliver no more lines. *)
Definition spent (s : pstate) : Prop := exists name rest eof err, s = PRead name rest eof err /\ (eof = true -> rest = []) /\ (err = true \/ rest = []).
Definition refuses (r : outcome rdres) : Prop := r = Err Internal \/ r = Ok (AMore false).
Lemma step_spent fl lm s c op : spent s -> exists s' r, lr_step fl lm (s, c) op = ((s', S c), r) /\ spent s' /\ refuses r /\ (op = RdRead -> r = Err Internal).
Proof.
  intros (name & rest & eof & err & -> & E & D). unfold refuses. destruct op; cbn [lr_step pf_has_more pf_read_line].
  - destruct eof; [exists (PRead name rest true err), (Ok (AMore false)); split; [reflexivity|]; split; [exists name, rest, true, err; auto|split; [auto|discriminate]]|].
    destruct err; [exists (PRead name rest false true), (Err Internal); split; [reflexivity|]; split; [exists name, rest, false, true; auto|split; [auto|discriminate]]|].
    destruct D as [D| ->]; [discriminate D|]. destruct (fl c); [exists (PRead name [] false true), (Err Internal)|exists (PRead name [] true false), (Ok (AMore false))]; (split; [reflexivity|]);
      (split; [do 4 eexists; split; [reflexivity|auto]|split; [auto|discriminate]]).
  - destruct rest as [|b rest]; [exists (PRead name [] true err), (Err Internal); split; [reflexivity|]; split; [exists name, [], true, err; auto|auto]|].
    destruct D as [->|D]; [|discriminate D]. destruct eof; [discriminate (E eq_refl)|]. destruct (fl c).
    + exists (PRead name (b :: rest) false true), (Err Internal). split; [reflexivity|]. split; [exists name, (b :: rest), false, true; auto|auto].
    + destruct (fgets (lm - 1) (b :: rest)) as [buf rest']. eexists _, (Err Internal). split; [reflexivity|]. split; [|auto]. do 4 eexists. split; [reflexivity|]. split; [|auto]. cbn [orb]. destruct rest'; [auto|discriminate].
Qed.
Lemma run_spent fl lm ops : forall s c, spent s -> Forall refuses (lr_run fl lm (s, c) ops).
Proof.
  induction ops as [|op ops IH]; intros s c P; [constructor|]. cbn [lr_run]. destruct (step_spent fl lm s c op P) as (s' & r & -> & P' & R & _). destruct R as [->| ->]; constructor; try (apply IH, P'); [left|right]; reflexivity.
Qed.

(** One call on a reader that has not failed. *)
Lemma step_live fl lm name f eof c op : (2 <= lm)%nat -> (eof = true -> f = []) ->
  match op with
  | RdHasMore => (exists s', lr_step fl lm (PRead name f eof false, c) op = ((s', S c), Err Internal) /\ spent s' /\ fl c = true) \/
                 (exists eof', lr_step fl lm (PRead name f eof false, c) op = ((PRead name f eof' false, S c), Ok (AMore (f_has_more f))) /\ (eof' = true -> f = []))
  | RdRead => (exists s', lr_step fl lm (PRead name f eof false, c) op = ((s', S c), Err Internal) /\ spent s' /\ (fl c = true \/ f = [])) \/
              (exists p rest eof', f <> [] /\ fgets (lm - 1) f = (p, rest) /\ lr_step fl lm (PRead name f eof false, c) op = ((PRead name rest eof' false, S c), Ok (ARecord (chomp (c_str p)))) /\ (eof' = true -> rest = []))
  end.
Proof.
  intros Lm E. destruct op; cbn [lr_step pf_has_more pf_read_line].
  - destruct eof; [rewrite (E eq_refl); right; exists true; auto|]. destruct (fl c) eqn:F.
    + left. eexists. split; [reflexivity|]. split; [exists name, f, false, true; auto|reflexivity].
    + right. destruct f; [exists true|exists false]; (split; [reflexivity|]); [auto|discriminate].
  - destruct f as [|b f]; [left; eexists; split; [reflexivity|]; split; [exists name, [], true, false; auto|auto]|]. destruct eof; [discriminate (E eq_refl)|]. destruct (fl c) eqn:F.
    + left. eexists. split; [reflexivity|]. split; [exists name, (b :: f), false, true; auto|auto].
    + right. destruct (fgets (lm - 1) (b :: f)) as [p rest] eqn:G. exists p, rest. eexists. split; [discriminate|]. split; [reflexivity|]. split; [reflexivity|]. cbn [orb]. destruct rest; [auto|discriminate].
Qed.
Lemma run_lines fl lm ops : (2 <= lm)%nat -> forall name f eof c ps ls, (eof = true -> f = []) -> pieces (lm - 1) f ps -> Forall2 reported ps ls ->
  prefix_of (before_failure (lr_run fl lm (PRead name f eof false, c) ops)) (ideal ls true ops) /\
  ((forall i, fl i = false) -> before_failure (lr_run fl lm (PRead name f eof false, c) ops) = ideal ls true ops).
Proof.
  intros Lm. assert (L1 : (1 <= lm - 1)%nat) by lia. induction ops as [|op ops IH]; intros name f eof c ps ls E P R; [split; [apply prefix_refl|reflexivity]|]. pose proof (step_live fl lm name f eof c op Lm E) as S. cbn [lr_run].
  destruct op.
  - destruct S as [(s' & S & _ & F)|(eof' & S & E')]; rewrite S.
    + split; [apply prefix_nil|]. intros N. rewrite N in F. discriminate F.
    + cbn [before_failure]. assert (X : ideal ls true (RdHasMore :: ops) = AMore (f_has_more f) :: ideal ls true ops).
      { cbn [ideal]. inversion P as [Ef Ep|p rest ps' Pp P' Ef Ep]; subst; inversion R; subst; [reflexivity|]. destruct Pp as (Np & _). destruct p as [|b p]; [elim Np; reflexivity|reflexivity]. }
      rewrite X. destruct (IH name f eof' (Datatypes.S c) ps ls E' P R) as [I1 I2]. split; [apply prefix_cons, I1|intros N; f_equal; apply I2, N].
  - destruct S as [(s' & S & _ & F)|(p & rest & eof' & Nf & G & S & E')]; rewrite S.
    + split; [apply prefix_nil|]. intros N. destruct F as [F| ->]; [rewrite N in F; discriminate F|]. inversion P as [Ef Ep|p rest ps' Pp P' Ef Ep]; subst; [inversion R; reflexivity|].
      destruct Pp as (Np & _). destruct p; [elim Np; reflexivity|discriminate Ef].
    + inversion P as [Ef Ep|p0 rest0 ps' Pp P' Ef Ep]; subst; [elim Nf; reflexivity|].
      destruct (piece_unique (lm - 1) p0 rest0 p rest Pp (fgets_piece _ _ _ _ L1 Nf G) (fgets_app _ _ _ _ G)) as [-> ->].
      inversion R as [|? l ? ls' R1 R2]; subst. rewrite (reported_fun _ _ _ R1 (chomp_reported _ _ (c_str_before p))) in *. cbn [before_failure ideal].
      destruct (IH name rest eof' (Datatypes.S c) ps' ls' E' P' R2) as [I1 I2]. split; [apply prefix_cons, I1|intros N; f_equal; apply I2, N].
Qed.
Lemma run_lines_internal fl lm ops : (2 <= lm)%nat -> forall name f eof c, (eof = true -> f = []) ->
  Forall (fun r => (exists a, r = Ok a) \/ r = Err Internal) (lr_run fl lm (PRead name f eof false, c) ops) /\
  forall a b, lr_run fl lm (PRead name f eof false, c) ops = a ++ Err Internal :: b -> Forall refuses b.
Proof.
  intros Lm. induction ops as [|op ops IH]; intros name f eof c E; [split; [constructor|intros [|? ?] b X; discriminate X]|]. pose proof (step_live fl lm name f eof c op Lm E) as S. cbn [lr_run].
  assert (D : (exists s', lr_step fl lm (PRead name f eof false, c) op = ((s', Datatypes.S c), Err Internal) /\ spent s') \/
              (exists f' eof' x, lr_step fl lm (PRead name f eof false, c) op = ((PRead name f' eof' false, Datatypes.S c), Ok x) /\ (eof' = true -> f' = []))).
  { destruct op.
    - destruct S as [(s' & S & P & F)|(eof' & S & E')]; [left; exists s'; auto|right; exists f, eof', (AMore (f_has_more f)); auto].
    - destruct S as [(s' & S & P & F)|(p & rest & eof' & Nf & G & S & E')]; [left; exists s'; auto|right; exists rest, eof', (ARecord (chomp (c_str p))); auto]. }
  clear S. destruct D as [(s' & S & P)|(f' & eof' & x & S & E')]; rewrite S.
  - pose proof (run_spent fl lm ops s' (Datatypes.S c) P) as Q. split.
    + constructor; [auto|]. eapply Forall_impl; [|exact Q]. intros r [->| ->]; eauto.
    + intros a b X. destruct a as [|y a]; cbn [app] in X; [injection X as X; rewrite <- X; exact Q|]. injection X as X1 X2. rewrite X2 in Q. apply Forall_app in Q. destruct Q as [_ Q]. inversion Q; assumption.
  - destruct (IH name f' eof' (Datatypes.S c) E') as [I1 I2]. split; [constructor; [eauto|exact I1]|]. intros a b X. destruct a as [|y a]; cbn [app] in X; [discriminate X|]. injection X as X1 X2. apply (I2 a b X2).
Qed.

(** The answers up to the first failure are those of the ideal reader of the lines of the file (C05), and exactly those when no fault occurs; no call is undefined. *)
Theorem C92_reader : forall fl name f ops ps ls, pieces 2047 f ps -> Forall2 reported ps ls -> let got := lr_run fl LINE_MAX (rr_opened name f) ops in
  prefix_of (before_failure got) (ideal ls true ops) /\ ((forall i, fl i = false) -> before_failure got = ideal ls true ops) /\
  Forall (fun r => (exists a, r = Ok a) \/ r = Err Internal) got.
Proof.
  intros fl name f ops ps ls P R got. destruct (run_lines fl LINE_MAX ops LINE_MAX_ge name f false 0 ps ls ltac:(discriminate) P R) as [A B]. split; [exact A|]. split; [exact B|].
  apply (run_lines_internal fl LINE_MAX ops LINE_MAX_ge name f false 0). discriminate.
Qed.
Print Assumptions C92_reader.
(** After a failed call no line is delivered and no more data is announced. *)
Theorem C92_reader_final : forall fl name f ops a b, lr_run fl LINE_MAX (rr_opened name f) ops = a ++ Err Internal :: b -> Forall (fun r => r = Err Internal \/ r = Ok (AMore false)) b.
Proof. intros fl name f ops a b E. apply (proj2 (run_lines_internal fl LINE_MAX ops LINE_MAX_ge name f false 0 ltac:(discriminate)) a b E). Qed.
Print Assumptions C92_reader_final.
Example C92_reader_case : pieces 2047 [x61; x0a; x62] [[x61; x0a]; [x62]] /\ Forall2 reported [[x61; x0a]; [x62]] [[x61]; [x62]] /\
  lr_run (fun _ => false) LINE_MAX (rr_opened [] [x61; x0a; x62]) [RdRead; RdHasMore; RdRead; RdHasMore; RdRead] = [Ok (ARecord [x61]); Ok (AMore true); Ok (ARecord [x62]); Ok (AMore false); Err Internal].
Proof.
  assert (F : fst (read_lines [x61; x0a; x62]) = [[x61]; [x62]]) by (vm_compute; reflexivity).
  split; [|split; [|vm_compute; reflexivity]].
  - change [x61; x0a; x62] with ([x61; x0a] ++ [x62] ++ []). constructor; [|constructor; [|constructor]].
    + apply (fgets_piece _ [x61; x0a; x62]); [apply Nat.leb_le; reflexivity|discriminate|vm_compute; reflexivity].
    + apply (fgets_piece _ [x62]); [apply Nat.leb_le; reflexivity|discriminate|vm_compute; reflexivity].
  - constructor; [|constructor; [|constructor]]; [exact (chomp_reported _ _ (c_str_before [x61; x0a]))|exact (chomp_reported _ _ (c_str_before [x62]))].
Qed.
(** Unlike a record reader, a line reader may report the end of an intact file after a device error: when the caller went on reading. *)
Theorem C92_false_end_refuted : exists f ls, read_lines f = (ls, Ok tt) /\ ls = [[x61]; [x62]] /\
  lr_run (fun i => (i =? 0)%nat) LINE_MAX (rr_opened [] f) [RdRead; RdRead; RdRead; RdHasMore] = [Err Internal; Err Internal; Err Internal; Ok (AMore false)].
Proof. exists [x61; x0a; x62], [[x61]; [x62]]. repeat split; vm_compute; reflexivity. Qed.
Print Assumptions C92_false_end_refuted.

(** ** Writers. *)
Notation sound l := (LW l None None).
Lemma write_ok name w l n : (n <= length l)%nat -> pf_write (PWrite name w) l n None = (PWrite name (w ++ firstn n l), Ok RNone).
Proof. intros L. unfold pf_write. destruct (Nat.ltb_spec (length l) n); [lia|reflexivity]. Qed.
Lemma write_fault name w l k : (k < length l)%nat -> pf_write (PWrite name w) l (length l) (Some k) = (PWrite name (w ++ firstn k l), Err Internal).
Proof. intros L. unfold pf_write. rewrite Nat.ltb_irrefl. destruct (Nat.ltb_spec k (length l)); [reflexivity|lia]. Qed.
Lemma lw_sound name w l : lw_write (PWrite name w) (sound l) = (PWrite name (w ++ l ++ [x0a]), Ok RNone).
Proof. unfold lw_write. cbn [lw_line lw_text_fault lw_newline_fault]. rewrite write_ok by lia. rewrite firstn_all. rewrite write_ok by (cbn; lia). cbn [firstn]. rewrite <- app_assoc. reflexivity. Qed.
Lemma lw_sounds name ls ws : forall w, lw_writes (PWrite name w) (map (fun l => sound l) ls ++ ws) =
  let (s, rs) := lw_writes (PWrite name (w ++ write_lines ls)) ws in (s, map (fun _ => Ok RNone) ls ++ rs).
Proof.
  induction ls as [|l ls IH]; intros w; cbn [map app lw_writes write_lines flat_map].
  - rewrite app_nil_r. destruct (lw_writes (PWrite name w) ws). reflexivity.
  - rewrite lw_sound, IH. fold (write_lines ls). rewrite <- (app_assoc w). destruct (lw_writes _ ws). reflexivity.
Qed.
(** A session without faults leaves exactly its lines in the file. *)
Theorem C92_writer_complete : forall d name ls, Forall (good_line 2047) ls ->
  exists d' f, lw_session d name (map (fun l => sound l) ls) = (map (fun _ => Ok RNone) ls, Ok RNone, d') /\ d' name = Some f /\
  f = flat_map (fun l => l ++ [x0a]) ls /\ read_lines f = (ls, Ok tt) /\ forall other, other <> name -> d' other = d other.
Proof.
  intros d name ls G. unfold lw_session. cbn [pf_open]. rewrite <- (app_nil_r (map (fun l => sound l) ls)), lw_sounds. cbn [lw_writes pf_close app]. rewrite app_nil_r. do 2 eexists. split; [reflexivity|].
  split; [unfold fs_set; rewrite bytes_eqb_refl; reflexivity|]. split; [reflexivity|]. split; [apply read_write_lines, G|]. intros other N. unfold fs_set. destruct (bytes_eqb other name) eqn:E; [|reflexivity]. apply bytes_eqb_eq in E. contradiction.
Qed.
Print Assumptions C92_writer_complete.
Lemma in_firstn {A} (x : A) k l : In x (firstn k l) -> In x l.
Proof. intros I. rewrite <- (firstn_skipn k l). apply in_or_app. left. exact I. Qed.
Lemma fgets_tail p : forall n, ~ In x0a p -> (length p <= n)%nat -> fgets n p = (p, []).
Proof.
  induction p as [|b p IH]; intros [|n] N L; cbn [length] in L; try reflexivity; try lia. cbn [fgets]. destruct (byte_eqb b x0a) eqn:E; [apply byte_eqb_eq in E; subst; elim N; left; reflexivity|].
  rewrite IH; [reflexivity|intros I; apply N; right; exact I|lia].
Qed.
Lemma chomp_tail p : ~ In x0a p -> chomp p = p.
Proof.
  intros N. unfold chomp. destruct (rev p) as [|b r] eqn:E; [apply (f_equal (@rev byte)) in E; rewrite rev_involutive in E; symmetry; exact E|].
  destruct (byte_eqb b x0a) eqn:Eb; [|reflexivity]. apply byte_eqb_eq in Eb. subst. elim N. apply in_rev. rewrite E. left. reflexivity.
Qed.
Lemma read_tail ls p k : Forall (good_line (LINE_MAX - 1)) ls -> ~ In x0a p -> ~ In x00 p -> (length p <= LINE_MAX - 1)%nat -> (length (write_lines ls ++ p) < k)%nat ->
  read_lines_loop LINE_MAX k (write_lines ls ++ p) = (ls ++ match p with [] => [] | b :: q => [b :: q] end, Ok tt).
Proof.
  intros G N1 N0 Lp. revert k. induction G as [|l ls Gl G IH]; intros [|k] L; try (cbn in L; lia).
  - cbn [write_lines flat_map app]. destruct p as [|b p]; [reflexivity|]. cbn [read_lines_loop f_has_more]. unfold read_line. rewrite fgets_tail by assumption. rewrite c_str_no_nul, chomp_tail by assumption.
    destruct k as [|k]; [cbn [write_lines flat_map app length] in L; lia|]. reflexivity.
  - cbn [write_lines flat_map] in *. fold (write_lines ls) in *. rewrite <- !app_assoc in *. cbn [app] in *. cbn [read_lines_loop].
    assert (M : f_has_more (l ++ x0a :: write_lines ls ++ p) = true) by (destruct l; reflexivity). rewrite M, read_line_good by exact Gl. rewrite IH; [reflexivity|]. rewrite app_length in L. cbn [length] in L. lia.
Qed.
(** When the Write of a line fails after [k] bytes of its text, or in its newline ([k] is the length of the line then), and the writer is closed, the lines before it can be read back. What was
    written of the failed line is read as a line like any other: nothing in the file shows that it is incomplete. *)
Theorem C92_writer_stops : forall d name ls l w k, Forall (good_line 2047) ls -> good_line 2047 l ->
  (w = LW l (Some k) None /\ (k < length l)%nat \/ w = LW l None (Some O) /\ k = length l) ->
  exists d' f, lw_session d name (map (fun l => sound l) ls ++ [w]) = (map (fun _ => Ok RNone) ls ++ [Err Internal], Ok RNone, d') /\ d' name = Some f /\
  f = flat_map (fun l => l ++ [x0a]) ls ++ firstn k l /\ read_lines f = (ls ++ match firstn k l with [] => [] | part => [part] end, Ok tt).
Proof.
  intros d name ls l w k G (N1 & N0 & _ & Ll) W. unfold lw_session. cbn [pf_open]. rewrite lw_sounds. cbn [app].
  assert (E : lw_writes (PWrite name (write_lines ls)) [w] = (PWrite name (write_lines ls ++ firstn k l), [Err Internal])).
  { destruct W as [[-> K]|[-> ->]]; cbn [lw_writes]; unfold lw_write; cbn [lw_line lw_text_fault lw_newline_fault].
    - rewrite write_fault by exact K. reflexivity.
    - rewrite write_ok by lia. change 1%nat with (length [x0a]). rewrite write_fault by (cbn; lia). cbn [firstn]. rewrite app_nil_r. reflexivity. }
  rewrite E. cbn [pf_close]. do 2 eexists. split; [reflexivity|]. split; [unfold fs_set; rewrite bytes_eqb_refl; reflexivity|]. split; [reflexivity|].
  unfold read_lines. apply (read_tail ls (firstn k l)); [exact G|intros I; apply N1, (in_firstn _ _ _ I)|intros I; apply N0, (in_firstn _ _ _ I)| |lia].
  rewrite firstn_length. change (LINE_MAX - 1)%nat with 2047%nat. lia.
Qed.
Print Assumptions C92_writer_stops.
(** The writer does not remember the failure: when the newline of a line is missing, the next line is accepted and glued to it. *)
Theorem C92_writer_continues_refuted : forall d name l l', good_line 2047 (l ++ l') ->
  exists d' f, lw_session d name [LW l None (Some O); sound l'] = ([Err Internal; Ok RNone], Ok RNone, d') /\ d' name = Some f /\ read_lines f = ([l ++ l'], Ok tt).
Proof.
  intros d name l l' G. unfold lw_session. cbn [pf_open lw_writes].
  assert (E : lw_write (PWrite name []) (LW l None (Some O)) = (PWrite name l, Err Internal)).
  { unfold lw_write. cbn [lw_line lw_text_fault lw_newline_fault]. rewrite write_ok by lia. rewrite firstn_all. change 1%nat with (length [x0a]). rewrite write_fault by (cbn; lia). cbn [firstn app]. rewrite app_nil_r. reflexivity. }
  rewrite E, lw_sound. cbn [pf_close]. do 2 eexists. split; [reflexivity|]. split; [unfold fs_set; rewrite bytes_eqb_refl; reflexivity|].
  rewrite app_assoc. replace ((l ++ l') ++ [x0a]) with (write_lines [l ++ l']) by (cbn [write_lines flat_map]; apply app_nil_r). apply (read_write_lines [l ++ l']). constructor; [exact G|constructor].
Qed.
Print Assumptions C92_writer_continues_refuted.
Example C92_good : good_line 2047 [x61; x62] /\ good_line 2047 ([x61] ++ [x62]).
Proof.
  assert (G : good_line 2047 [x61; x62]) by (split; [cbn; intuition discriminate|]; split; [cbn; intuition discriminate|]; split; [intros [|? [|? [|? ?]]]; discriminate|apply Nat.ltb_lt; reflexivity]).
  split; exact G.
Qed.
