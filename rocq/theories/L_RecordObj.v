(** Lemmas about record readers and writers as objects. *)
From Verif Require Import Base M_RecordIO L_RecordIO M_Shard M_File S_File M_RecordObj S_RecordObj.

Notation live name f := (PRead name f false false).
Notation ended name := (PRead name [] true false).
Notation broken name f := (PRead name f false true).

Lemma read_live (fl : nat -> option nat) c name f n : (n <= length f)%nat ->
  (exists k, pf_read (live name f) n (fl c) = (broken name (skipn k f), Err Internal) /\ fl c = Some k) \/ pf_read (live name f) n (fl c) = (live name (skipn n f), Ok (RBytes (firstn n f))).
Proof.
  intros L. unfold pf_read. destruct (fl c) as [k|].
  - destruct (k <? Nat.min n (length f))%nat; [left; exists k; split; reflexivity|]. right. apply Nat.leb_le in L. rewrite L. reflexivity.
  - right. apply Nat.leb_le in L. rewrite L. reflexivity.
Qed.
Lemma read_short (fl : nat -> option nat) c name f n : (length f < n)%nat ->
  (exists k, pf_read (live name f) n (fl c) = (broken name (skipn k f), Err Internal) /\ fl c = Some k) \/ pf_read (live name f) n (fl c) = (ended name, Err Internal).
Proof.
  intros L. unfold pf_read. destruct (fl c) as [k|].
  - destruct (k <? Nat.min n (length f))%nat; [left; exists k; split; reflexivity|]. right. apply Nat.leb_gt in L. rewrite L. reflexivity.
  - right. apply Nat.leb_gt in L. rewrite L. reflexivity.
Qed.

Lemma varint_live fl n : forall name f c acc,
  (exists h t f' c', varint_loop n f = Ok (h, t, f') /\ rr_varint fl n (live name f) c acc = (if t : bool then live name f' else ended name, c', Ok (acc ++ h, t))) \/
  (exists f' c' i, rr_varint fl n (live name f) c acc = (broken name f', c', Err Internal) /\ fl i <> None) \/
  (exists f' c', varint_loop n f = Err InvalidArgument /\ rr_varint fl n (live name f) c acc = (live name f', c', Err InvalidArgument)).
Proof.
  induction n as [|n IH]; intros name f c acc.
  - right. right. exists f, c. split; reflexivity.
  - cbn [rr_varint varint_loop pf_has_more]. unfold strikes. destruct (fl c) as [k|] eqn:Ec.
    { right. left. exists f, (S c), c. split; [reflexivity|]. rewrite Ec. discriminate. }
    destruct f as [|b f].
    { left. exists [], false, [], (S c). rewrite app_nil_r. split; reflexivity. }
    destruct (read_live fl (S c) name (b :: f) 1 ltac:(cbn; lia)) as [(k & E & F)|E]; rewrite E.
    { right. left. exists (skipn k (b :: f)), (S (S c)), (S c). split; [reflexivity|]. rewrite F. discriminate. }
    cbn [firstn skipn]. destruct (bz b <? 128).
    { left. exists [b], true, f, (S (S c)). split; reflexivity. }
    destruct (IH name f (S (S c)) (acc ++ [b])) as [(h & t & f' & c' & E1 & E2)|[(f' & c' & i & E1 & F)|(f' & c' & E1 & E2)]].
    + left. exists (b :: h), t, f', c'. rewrite E1, E2. cbn [bind]. rewrite <- app_assoc. split; reflexivity.
    + right. left. exists f', c', i. split; [exact E1|exact F].
    + right. right. exists f', c'. rewrite E1, E2. split; reflexivity.
Qed.

Lemma record_live fl name f c :
  (exists r f' c', read_record f = Ok (r, f') /\ rr_read fl (live name f) c = (live name f', c', Ok r)) \/
  (exists f' c' i, rr_read fl (live name f) c = (broken name f', c', Err Internal) /\ fl i <> None) \/
  (exists c', read_record f = Err Internal /\ rr_read fl (live name f) c = (ended name, c', Err Internal)) \/
  (exists f' c', read_record f = Err InvalidArgument /\ rr_read fl (live name f) c = (live name f', c', Err InvalidArgument)) \/
  (exists s c', read_record f = UB /\ rr_read fl (live name f) c = (s, c', UB)).
Proof.
  unfold rr_read, read_record, extract_varint32. destruct (varint_live fl 5 name f c []) as [(h & t & f' & c' & E1 & E2)|[(f' & c' & i & E1 & F)|(f' & c' & E1 & E2)]].
  - rewrite E1, E2. cbn [app bind]. destruct t; cbn [bind].
    + set (n := Z.to_nat (read_varint32 h)). unfold f_read. destruct (Nat.leb_spec n (length f')) as [L|L].
      * destruct (read_live fl c' name f' n L) as [(k & E & F)|E]; rewrite E.
        -- right. left. exists (skipn k f'), (S c'), c'. split; [reflexivity|]. rewrite F. discriminate.
        -- left. exists (firstn n f'), (skipn n f'), (S c'). split; reflexivity.
      * destruct (read_short fl c' name f' n L) as [(k & E & F)|E]; rewrite E.
        -- right. left. exists (skipn k f'), (S c'), c'. split; [reflexivity|]. rewrite F. discriminate.
        -- right. right. left. exists (S c'). split; reflexivity.
    + right. right. right. right. exists (ended name), c'. split; reflexivity.
  - rewrite E1. right. left. exists f', c', i. split; [reflexivity|exact F].
  - rewrite E1, E2. right. right. right. left. exists f', c'. split; reflexivity.
Qed.

Lemma step_live_more fl name f c :
  (exists i, rr_step fl (live name f, c) RdHasMore = ((broken name f, S c), Err Internal) /\ fl i <> None) \/
  (f_has_more f = true /\ rr_step fl (live name f, c) RdHasMore = ((live name f, S c), Ok (AMore true))) \/
  (f = [] /\ rr_step fl (live name f, c) RdHasMore = ((ended name, S c), Ok (AMore false))).
Proof.
  cbn [rr_step pf_has_more]. unfold strikes. destruct (fl c) eqn:E.
  - left. exists c. split; [reflexivity|]. rewrite E. discriminate.
  - destruct f; right; [right|left]; split; reflexivity.
Qed.
Lemma step_ended fl name rest err c op : rr_step fl (PRead name rest true err, c) op = match op with RdHasMore => ((PRead name rest true err, S c), Ok (AMore false)) | RdRead => ((PRead name rest true err, S c), UB) end.
Proof. destruct op; reflexivity. Qed.
Lemma step_broken fl name f c op : exists c', rr_step fl (broken name f, c) op = ((broken name f, c'), Err Internal).
Proof. destruct op; eexists; reflexivity. Qed.

Lemma run_broken fl ops : forall name f c, Forall (fun r => r = Err Internal) (rr_run fl (broken name f, c) ops).
Proof.
  induction ops as [|op ops IH]; intros name f c; [constructor|]. cbn [rr_run]. destruct (step_broken fl name f c op) as [c' ->]. constructor; [reflexivity|apply IH].
Qed.
Lemma run_ended fl ops : forall name rest err c, Forall (fun r => r = Ok (AMore false) \/ r = UB) (rr_run fl (PRead name rest true err, c) ops).
Proof.
  induction ops as [|op ops IH]; intros name rest err c; [constructor|]. cbn [rr_run]. rewrite step_ended. destruct op; constructor; auto.
Qed.

Lemma read_records_unfold f : read_records f = if f_has_more f then match read_record f with
  | Ok (r, f') => let (rs, e) := read_records f' in (r :: rs, e) | Err x => ([], Err x) | Crash => ([], Crash) | UB => ([], UB) | Diverge => ([], Diverge) end else ([], Ok tt).
Proof.
  unfold read_records. cbn [read_all]. destruct (f_has_more f); [|reflexivity]. destruct (read_record f) as [[r f']| | | |] eqn:E; try reflexivity.
  pose proof (read_record_shrinks _ _ _ E). rewrite (read_all_fuel (length f) (S (length f'))) by lia. reflexivity.
Qed.
Definition clean (f : bytes) : bool := match snd (read_records f) with Ok _ => true | _ => false end.
Lemma ideal_end l : ideal [] true l = before_failure (map (fun op => match op with RdHasMore => Ok (AMore false) | RdRead => UB end) l).
Proof. induction l as [|[|] l IH]; cbn; [reflexivity|rewrite IH; reflexivity|reflexivity]. Qed.
Lemma run_ended_eq fl ops : forall name rest err c, before_failure (rr_run fl (PRead name rest true err, c) ops) = ideal [] true ops.
Proof.
  induction ops as [|op ops IH]; intros name rest err c; [reflexivity|]. cbn [rr_run]. rewrite step_ended. destruct op; [|reflexivity]. cbn [before_failure ideal]. rewrite IH. reflexivity.
Qed.
Lemma prefix_refl {A} (l : list A) : prefix_of l l.
Proof. exists []. rewrite app_nil_r. reflexivity. Qed.
Lemma prefix_nil {A} (l : list A) : prefix_of [] l.
Proof. exists l. reflexivity. Qed.
Lemma prefix_cons {A} (a : A) l m : prefix_of l m -> prefix_of (a :: l) (a :: m).
Proof. intros [c ->]. exists c. reflexivity. Qed.

Lemma ideal_more f ops : f_has_more f = true ->
  ideal (fst (read_records f)) (clean f) (RdHasMore :: ops) = AMore true :: ideal (fst (read_records f)) (clean f) ops.
Proof.
  intros M. cbn [ideal]. destruct (fst (read_records f)) as [|r rs] eqn:E; [|reflexivity]. unfold clean. rewrite read_records_unfold, M in *. destruct (read_record f) as [[r f']| | | |]; try reflexivity.
  destruct (read_records f'). discriminate E.
Qed.
Lemma ideal_read f r f' ops : read_record f = Ok (r, f') ->
  ideal (fst (read_records f)) (clean f) (RdRead :: ops) = ARecord r :: ideal (fst (read_records f')) (clean f') ops.
Proof.
  intros E. assert (M : f_has_more f = true) by (destruct f; [discriminate E|reflexivity]). unfold clean. rewrite (read_records_unfold f), M, E. destruct (read_records f') as [rs e]. reflexivity.
Qed.
Lemma read_records_stop f : (forall r f', read_record f <> Ok (r, f')) -> fst (read_records f) = [].
Proof. intros N. rewrite read_records_unfold. destruct (f_has_more f); [|reflexivity]. destruct (read_record f) as [[r f']| | | |]; try reflexivity. elim (N r f' eq_refl). Qed.

Lemma run_live fl ops : forall name f c,
  prefix_of (before_failure (rr_run fl (live name f, c) ops)) (ideal (fst (read_records f)) (clean f) ops) /\
  ((forall i, fl i = None) -> before_failure (rr_run fl (live name f, c) ops) = ideal (fst (read_records f)) (clean f) ops).
Proof.
  induction ops as [|op ops IH]; intros name f c; [split; [apply prefix_refl|reflexivity]|]. destruct op.
  - cbn [rr_run]. destruct (step_live_more fl name f c) as [(i & E & F)|[[M E]|[-> E]]]; rewrite E.
    + split; [apply prefix_nil|intros N; elim F; apply N].
    + cbn [before_failure]. rewrite (ideal_more f ops M). destruct (IH name f (S c)) as [P Q]. split; [apply prefix_cons, P|intros N; f_equal; apply Q, N].
    + cbn [before_failure]. rewrite run_ended_eq. split; [apply prefix_refl|reflexivity].
  - cbn [rr_run rr_step]. destruct (record_live fl name f c) as [(r & f' & c' & R & E)|[(f' & c' & i & E & F)|[(c' & R & E)|[(f' & c' & R & E)|(s & c' & R & E)]]]]; rewrite E; cbn [bind].
    + cbn [before_failure]. rewrite (ideal_read f r f' ops R). destruct (IH name f' c') as [P Q]. split; [apply prefix_cons, P|intros N; f_equal; apply Q, N].
    + split; [apply prefix_nil|intros N; elim F; apply N].
    + cbn [before_failure]. cbn [ideal]. rewrite read_records_stop by (rewrite R; discriminate). split; [apply prefix_refl|reflexivity].
    + cbn [before_failure]. cbn [ideal]. rewrite read_records_stop by (rewrite R; discriminate). split; [apply prefix_refl|reflexivity].
    + cbn [before_failure]. cbn [ideal]. rewrite read_records_stop by (rewrite R; discriminate). split; [apply prefix_refl|reflexivity].
Qed.

(** Where an INTERNAL answer leaves the reader. *)
Lemma run_internal fl ops : forall name f c a b, rr_run fl (live name f, c) ops = a ++ Err Internal :: b ->
  Forall (fun r => r = Err Internal) b \/ Forall (fun r => r = Ok (AMore false) \/ r = UB) b.
Proof.
  induction ops as [|op ops IH]; intros name f c a b E; [destruct a; discriminate E|]. destruct op.
  - cbn [rr_run] in E. destruct (step_live_more fl name f c) as [(i & S & F)|[[M S]|[-> S]]]; rewrite S in E.
    + left. destruct a as [|x a]; cbn [app] in E; [injection E as E2; rewrite <- E2; apply run_broken|injection E as E1 E2]. pose proof (run_broken fl ops name f (Datatypes.S c)) as B. rewrite E2 in B.
      apply Forall_app in B. destruct B as [_ B]. inversion B; assumption.
    + destruct a as [|x a]; cbn [app] in E; [discriminate E|]. injection E as E1 E2. apply (IH name f _ a b E2).
    + destruct a as [|x a]; cbn [app] in E; [discriminate E|]. injection E as E1 E2. pose proof (run_ended fl ops name [] false (Datatypes.S c)) as B. rewrite E2 in B. apply Forall_app in B.
      destruct B as [_ B]. apply Forall_inv in B; destruct B as [X|X]; discriminate X.
  - cbn [rr_run rr_step] in E. destruct (record_live fl name f c) as [(r & f' & c' & R & S)|[(f' & c' & i & S & F)|[(c' & R & S)|[(f' & c' & R & S)|(s & c' & R & S)]]]]; rewrite S in E; cbn [bind] in E.
    + destruct a as [|x a]; cbn [app] in E; [discriminate E|]. injection E as E1 E2. apply (IH name f' _ a b E2).
    + left. destruct a as [|x a]; cbn [app] in E; [injection E as E2; rewrite <- E2; apply run_broken|injection E as E1 E2]. pose proof (run_broken fl ops name f' c') as B. rewrite E2 in B.
      apply Forall_app in B. destruct B as [_ B]. inversion B; assumption.
    + right. destruct a as [|x a]; cbn [app] in E; [injection E as E2; rewrite <- E2; apply run_ended|injection E as E1 E2]. pose proof (run_ended fl ops name [] false c') as B. rewrite E2 in B.
      apply Forall_app in B. destruct B as [_ B]. inversion B; assumption.
    + destruct a as [|x a]; cbn [app] in E; [discriminate E|]. injection E as E1 E2. apply (IH name f' _ a b E2).
    + destruct a as [|x a]; cbn [app] in E; [discriminate E|]. injection E as E1 E2. destruct a; discriminate E2.
Qed.
Lemma run_internal_clean fl ops : forall name f c a b, clean f = true -> rr_run fl (live name f, c) ops = a ++ Err Internal :: b -> Forall (fun r => r = Err Internal) b.
Proof.
  induction ops as [|op ops IH]; intros name f c a b C E; [destruct a; discriminate E|]. destruct op.
  - cbn [rr_run] in E. destruct (step_live_more fl name f c) as [(i & S & F)|[[M S]|[-> S]]]; rewrite S in E.
    + destruct a as [|x a]; cbn [app] in E; [injection E as E2; rewrite <- E2; apply run_broken|injection E as E1 E2]. pose proof (run_broken fl ops name f (Datatypes.S c)) as B. rewrite E2 in B.
      apply Forall_app in B. destruct B as [_ B]. inversion B; assumption.
    + destruct a as [|x a]; cbn [app] in E; [discriminate E|]. injection E as E1 E2. apply (IH name f _ a b C E2).
    + destruct a as [|x a]; cbn [app] in E; [discriminate E|]. injection E as E1 E2. pose proof (run_ended fl ops name [] false (Datatypes.S c)) as B. rewrite E2 in B. apply Forall_app in B.
      destruct B as [_ B]. apply Forall_inv in B; destruct B as [X|X]; discriminate X.
  - cbn [rr_run rr_step] in E. destruct (record_live fl name f c) as [(r & f' & c' & R & S)|[(f' & c' & i & S & F)|[(c' & R & S)|[(f' & c' & R & S)|(s & c' & R & S)]]]]; rewrite S in E; cbn [bind] in E.
    + destruct a as [|x a]; cbn [app] in E; [discriminate E|]. injection E as E1 E2. apply (IH name f' c' a b); [|exact E2].
      unfold clean in *. rewrite read_records_unfold in C. destruct (f_has_more f) eqn:M; [|destruct f; [discriminate R|discriminate M]]. rewrite R in C. destruct (read_records f'). exact C.
    + destruct a as [|x a]; cbn [app] in E; [injection E as E2; rewrite <- E2; apply run_broken|injection E as E1 E2]. pose proof (run_broken fl ops name f' c') as B. rewrite E2 in B.
      apply Forall_app in B. destruct B as [_ B]. inversion B; assumption.
    + exfalso. unfold clean in C. rewrite read_records_unfold, R in C. destruct f; [discriminate R|discriminate C].
    + exfalso. unfold clean in C. rewrite read_records_unfold, R in C. destruct f; [discriminate R|discriminate C].
    + destruct a as [|x a]; cbn [app] in E; [discriminate E|]. injection E as E1 E2. destruct a; discriminate E2.
Qed.

(** ** Writers. *)
Definition piece_of (w : bytes * option nat) : bytes := match snd w with Some k => firstn k (encode_record (fst w)) | None => encode_record (fst w) end.
Definition status_of (w : bytes * option nat) : outcome pres := match snd w with Some k => if (k <? length (encode_record (fst w)))%nat then Err Internal else Ok RNone | None => Ok RNone end.
Lemma run_writes lm name d ws : forall w0 ops,
  pf_run lm (PWrite name w0, d) (map rw_op ws ++ ops) = let (sd, rs') := pf_run lm (PWrite name (w0 ++ flat_map piece_of ws), d) ops in (sd, map status_of ws ++ rs').
Proof.
  induction ws as [|[r o] ws IH]; intros w0 ops.
  - cbn [map app flat_map]. rewrite app_nil_r. destruct (pf_run lm (PWrite name w0, d) ops). reflexivity.
  - cbn [map app flat_map]. unfold rw_op at 1. cbn [fst snd pf_run pf_step pf_write]. rewrite Nat.ltb_irrefl.
    assert (E : (match o with Some k => if (k <? length (encode_record r))%nat then (PWrite name (w0 ++ firstn k (encode_record r)), Err Internal) else (PWrite name (w0 ++ firstn (length (encode_record r)) (encode_record r)), Ok RNone)
      | None => (PWrite name (w0 ++ firstn (length (encode_record r)) (encode_record r)), Ok RNone) end) = (PWrite name (w0 ++ piece_of (r, o)), status_of (r, o))).
    { unfold piece_of, status_of. cbn [fst snd]. rewrite firstn_all. destruct o as [k|]; [|reflexivity]. destruct (Nat.ltb_spec k (length (encode_record r))); [reflexivity|]. rewrite firstn_all2 by assumption. reflexivity. }
    rewrite E. rewrite app_assoc, IH. destruct (pf_run lm _ ops) as [sd rs'].
    unfold status_of at 1 3. cbn [fst snd]. destruct o as [k|]; [destruct (k <? length (encode_record r))%nat|]; reflexivity.
Qed.
Lemma session_run lm name d ws : pf_run lm (PNull, d) (rw_session name ws) =
  ((PNull, fs_set (fs_set d name []) name (flat_map piece_of ws)), Ok RNone :: map status_of ws ++ [Ok RNone]).
Proof. unfold rw_session. cbn [pf_run pf_step pf_open]. rewrite run_writes. reflexivity. Qed.
