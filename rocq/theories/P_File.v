(** C63 (one file object), C64 (a multi-file reader object). *)
From Verif Require Import Base M_RecordIO L_RecordIO M_Shard L_Shard L_Merge M_File S_Shard S_File.

(** ** C63: files. *)
Definition st (sd : pstate * fs) := fst sd.
Definition state_open (s : pstate) : bool := match s with PNull => false | _ => true end.

Lemma run_step lm sd op ops : pf_run lm sd (op :: ops) = let (sd', r) := pf_step lm sd op in match r with UB => (sd', [UB]) | _ => let (sd'', rs) := pf_run lm sd' ops in (sd'', r :: rs) end.
Proof. reflexivity. Qed.

(** The invariant of benign histories: no dangling stream, and the end-of-file indicator only with nothing left. *)
Definition sane (s : pstate) : Prop := match s with PDangle => False | PRead _ rest eof _ => eof = true -> rest = [] | _ => True end.

Lemma step_benign lm s d op s' d' r : sane s -> benign op -> pf_step lm (s, d) op = ((s', d'), r) ->
  sane s' /\ r <> UB /\ r <> Crash /\ r <> Diverge /\
  state_open s' = (match op, r with OpOpen _ _ _, Ok _ => true | OpCloseF _, Ok _ => false | OpDestroy, Ok _ => false | _, _ => state_open s end).
Proof.
  intros HS HB E. destruct op as [name m fails|fails|fails|n fails|fails|content n fails|]; cbn [pf_step benign] in *.
  - unfold pf_open in E. destruct s; try (exfalso; exact HS); [|injection E as <- <- <-; repeat split; try discriminate; exact HS..].
    destruct fails; [injection E as <- <- <-; repeat split; discriminate|]. destruct m; [|injection E as <- <- <-; repeat split; discriminate].
    destruct (d name); injection E as <- <- <-; repeat split; try discriminate; exact HS.
  - subst fails. unfold pf_close in E. destruct s; try (exfalso; exact HS); injection E as <- <- <-; repeat split; discriminate.
  - unfold pf_has_more in E. destruct s as [|name rest eof err|name w|]; try (exfalso; exact HS); try (injection E as <- <- <-; repeat split; discriminate).
    destruct eof; [injection E as <- <- <-; repeat split; try discriminate; exact HS|]. destruct err; [injection E as <- <- <-; repeat split; discriminate|].
    destruct fails; [injection E as <- <- <-; repeat split; discriminate|]. destruct rest; injection E as <- <- <-; repeat split; discriminate.
  - unfold pf_read in E. destruct s as [|name rest eof err|name w|]; try (exfalso; exact HS); try (injection E as <- <- <-; repeat split; discriminate).
    + assert (A : eof = true -> forall k, skipn k rest = []) by (intros X k; rewrite (HS X); apply skipn_nil).
      destruct fails as [k|]; [destruct (k <? Nat.min n (length rest))%nat|]; try (destruct (n <=? length rest)%nat); injection E as <- <- <-; repeat split; try discriminate; intros X; apply A, X.
    + destruct (Nat.eqb n 0); injection E as <- <- <-; repeat split; discriminate.
  - unfold pf_read_line in E. destruct s as [|name rest eof err|name w|]; try (exfalso; exact HS); try (injection E as <- <- <-; repeat split; discriminate).
    destruct rest as [|b rest]; [injection E as <- <- <-; repeat split; discriminate|]. destruct eof; [discriminate (HS eq_refl)|].
    destruct fails; [injection E as <- <- <-; repeat split; discriminate|]. destruct (fgets (lm - 1) (b :: rest)) as [buf rest'] eqn:F.
    destruct err; injection E as <- <- <-; repeat split; try discriminate; cbn [orb]; destruct rest'; intros X; reflexivity || discriminate.
  - unfold pf_write in E. destruct s as [|name rest eof err|name w|]; try (exfalso; exact HS); try (injection E as <- <- <-; repeat split; discriminate).
    + destruct (Nat.eqb n 0); injection E as <- <- <-; repeat split; try discriminate; exact HS.
    + destruct (Nat.ltb_spec (length content) n); [lia|]. destruct fails as [k|]; [destruct (k <? n)%nat|]; injection E as <- <- <-; repeat split; discriminate.
  - unfold pf_destroy in E. destruct s; try (exfalso; exact HS); injection E as <- <- <-; repeat split; discriminate.
Qed.

Lemma run_benign lm ops : forall s d s' d' rs b, sane s -> state_open s = b -> Forall benign ops -> pf_run lm (s, d) ops = ((s', d'), rs) ->
  sane s' /\ (forall r, In r rs -> r <> UB /\ r <> Crash /\ r <> Diverge) /\ length rs = length ops /\ state_open s' = is_open b ops rs.
Proof.
  induction ops as [|op ops IH]; intros s d s' d' rs b HS Hb HB E.
  - injection E as <- <- <-. split; [exact HS|]. split; [intros r []|]. split; [reflexivity|exact Hb].
  - rewrite run_step in E. destruct (pf_step lm (s, d) op) as [[s1 d1] r] eqn:E1. inversion HB as [|? ? HB1 HB2]. subst.
    destruct (step_benign _ _ _ _ _ _ _ HS HB1 E1) as (S1 & N1 & N2 & N3 & O1).
    destruct (pf_run lm (s1, d1) ops) as [[s2 d2] rs2] eqn:E2. assert (X : s' = s2 /\ d' = d2 /\ rs = r :: rs2) by (destruct r; try contradiction; injection E as <- <- <-; repeat split).
    destruct X as (-> & -> & ->). destruct (IH _ _ _ _ _ (state_open s1) S1 eq_refl HB2 E2) as (S2 & R2 & L2 & O2). split; [exact S2|].
    split; [intros x [<-|Hx]; [repeat split; assumption|apply R2, Hx]|]. split; [cbn [length]; lia|]. rewrite O2, O1.
    destruct op, r; try contradiction; reflexivity.
Qed.

(** No call is undefined as long as no fclose fails, whatever the order of calls and whatever else fails. *)
Theorem C63_never_undefined_partial : forall lm d ops sd rs, Forall benign ops -> pf_run lm (PNull, d) ops = (sd, rs) ->
  length rs = length ops /\ forall r, In r rs -> (exists x, r = Ok x) \/ r = Err Internal \/ r = Err NotFound.
Proof.
  intros lm d ops [s' d'] rs HB E. destruct (run_benign lm ops PNull d s' d' rs false I eq_refl HB E) as (_ & R & Ln & _). split; [exact Ln|].
  assert (G : forall ops s d s' d' rs, pf_run lm (s, d) ops = ((s', d'), rs) -> forall r, In r rs -> r = UB \/ (exists x, r = Ok x) \/ r = Err Internal \/ r = Err NotFound).
  { clear. induction ops as [|op ops IH]; intros s d s' d' rs E r Hr; [injection E as <- <- <-; destruct Hr|]. rewrite run_step in E. destruct (pf_step lm (s, d) op) as [[s1 d1] r1] eqn:E1.
    assert (D : r1 = UB \/ (exists x, r1 = Ok x) \/ r1 = Err Internal \/ r1 = Err NotFound).
    { clear -E1. destruct op as [name m fails|fails|fails|n fails|fails|content n fails|]; cbn [pf_step] in E1;
        unfold pf_open, pf_close, pf_has_more, pf_read, pf_read_line, pf_write, pf_destroy in E1;
        repeat match type of E1 with context [match ?x with _ => _ end] => lazymatch x with context [match _ with _ => _ end] => fail | _ => destruct x end end; injection E1 as <- <- <-;
        first [left; reflexivity|right; left; eexists; reflexivity|right; right; left; reflexivity|right; right; right; reflexivity]. }
    destruct r1 as [x|c| | |]; try (destruct D as [D|[[? D]|[D|D]]]; discriminate).
    - destruct (pf_run lm (s1, d1) ops) as [[s2 d2] rs2] eqn:E2. injection E as <- <- <-. destruct Hr as [<-|Hr]; [exact D|eapply IH; eassumption].
    - destruct (pf_run lm (s1, d1) ops) as [[s2 d2] rs2] eqn:E2. injection E as <- <- <-. destruct Hr as [<-|Hr]; [exact D|eapply IH; eassumption].
    - injection E as <- <- <-. destruct Hr as [<-|[]]. exact D. }
  intros r Hr. destruct (G _ _ _ _ _ _ E r Hr) as [->|D]; [destruct (R UB Hr) as [N _]; contradiction|exact D].
Qed.
Print Assumptions C63_never_undefined_partial.
(** A failed fclose is enough: the object keeps the released stream, refuses to open another file, and destroying it (or closing it again) is undefined. *)
Theorem C63_failed_close_refuted : forall lm d name c x,
  snd (pf_run lm (PNull, d) [OpOpen name MWrite false; OpCloseF (Some c); OpDestroy]) = [Ok RNone; Err Internal; UB] /\
  snd (pf_run lm (PNull, d) [OpOpen name MWrite false; OpCloseF (Some c); OpCloseF x]) = [Ok RNone; Err Internal; UB] /\
  forall n m f, snd (pf_run lm (PNull, d) [OpOpen name MWrite false; OpCloseF (Some c); OpOpen n m f]) = [Ok RNone; Err Internal; Err Internal].
Proof. intros lm d name c x. split; [|split]; reflexivity. Qed.
Print Assumptions C63_failed_close_refuted.
(** The calls refuse to work on an object without a file, and a second file is not opened over the first; after Close the object is as good as new. *)
Theorem C63_open_discipline : forall lm d ops s d' rs op, Forall benign ops -> pf_run lm (PNull, d) ops = ((s, d'), rs) -> benign op ->
  let '(_, r) := pf_step lm (s, d') op in
  if is_open false ops rs
  then match op with OpOpen _ _ _ => r = Err Internal | OpCloseF _ | OpDestroy => r = Ok RNone | _ => True end
  else match op with
       | OpOpen name m fails => fails = false -> m = MWrite \/ d' name <> None -> r = Ok RNone
       | OpDestroy => r = Ok RNone
       | _ => r = Err Internal
       end.
Proof.
  intros lm d ops s d' rs op HB E Ho. destruct (run_benign lm ops PNull d s d' rs false I eq_refl HB E) as (HS & _ & _ & HO). rewrite <- HO. clear HO E HB.
  destruct s as [|name rest eof err|name w|]; try (exfalso; exact HS); cbn [state_open]; destruct op as [n m fails|fails|fails|n fails|fails|content n fails|]; cbn [pf_step pf_open pf_close pf_destroy] in *; try reflexivity.
  - destruct fails; [discriminate|]. destruct m; [|reflexivity]. destruct (d' n); [reflexivity|]. intros _ [X|X]; [discriminate|contradiction].
  - cbn [benign] in Ho. subst. reflexivity.
  - destruct (pf_has_more (PRead name rest eof err) fails). exact I.
  - destruct (pf_read (PRead name rest eof err) n fails). exact I.
  - destruct (pf_read_line lm (PRead name rest eof err) fails). exact I.
  - destruct (pf_write (PRead name rest eof err) content n fails). exact I.
  - cbn [benign] in Ho. subst. reflexivity.
  - destruct (pf_write (PWrite name w) content n fails). exact I.
Qed.
Print Assumptions C63_open_discipline.

Lemma run_reading lm ops : forall name rest eof err d s' d' rs, (eof = true -> rest = []) -> Forall is_reading ops -> pf_run lm (PRead name rest eof err, d) ops = ((s', d'), rs) -> Forall is_ok_res rs ->
  d' = d /\ exists rest' eof' err', s' = PRead name rest' eof' err' /\ rest = bytes_read rs ++ rest' /\ (eof' = true -> rest' = []).
Proof.
  induction ops as [|op ops IH]; intros name rest eof err d s' d' rs HS HR E HO.
  - injection E as <- <- <-. split; [reflexivity|]. exists rest, eof, err. repeat split. exact HS.
  - rewrite run_step in E. inversion HR as [|? ? R1 R2]. subst. destruct op as [| |fails|n fails| | |]; try destruct R1.
    + cbn [pf_step pf_has_more] in E. destruct eof.
      { destruct (pf_run lm (PRead name rest true err, d) ops) as [[s2 d2] rs2] eqn:E2. injection E as <- <- <-. inversion HO. subst. cbn [bytes_read]. eapply IH; eassumption. }
      destruct err; [destruct (pf_run lm _ ops) as [[s2 d2] rs2]; injection E as <- <- <-; inversion HO as [|? ? [? X] ?]; discriminate|].
      destruct fails; [destruct (pf_run lm _ ops) as [[s2 d2] rs2]; injection E as <- <- <-; inversion HO as [|? ? [? X] ?]; discriminate|].
      destruct rest as [|b rest].
      * destruct (pf_run lm (PRead name [] true false, d) ops) as [[s2 d2] rs2] eqn:E2. injection E as <- <- <-. inversion HO. subst. cbn [bytes_read]. eapply IH; [|eassumption|exact E2|assumption]; reflexivity.
      * destruct (pf_run lm (PRead name (b :: rest) false false, d) ops) as [[s2 d2] rs2] eqn:E2. injection E as <- <- <-. inversion HO. subst. cbn [bytes_read]. eapply IH; [|eassumption|exact E2|assumption]; discriminate.
    + cbn [pf_step pf_read] in E.
      assert (A : forall k, eof = true -> skipn k rest = []) by (intros k X; rewrite (HS X); apply skipn_nil).
      assert (G : forall e' er' q, (let (sd'', rs0) := pf_run lm (PRead name q e' er', d) ops in (sd'', Err Internal :: rs0)) = ((s', d'), rs) -> False).
      { intros e' er' q X. destruct (pf_run lm _ ops) as [[s2 d2] rs2]. injection X as <- <- <-. inversion HO as [|? ? [? Y] ?]. discriminate. }
      assert (H : (let (sd'', rs0) := pf_run lm (PRead name (skipn n rest) eof err, d) ops in (sd'', Ok (RBytes (firstn n rest)) :: rs0)) = ((s', d'), rs) ->
                  d' = d /\ exists rest' eof' err', s' = PRead name rest' eof' err' /\ rest = bytes_read rs ++ rest' /\ (eof' = true -> rest' = [])).
      { intros X. destruct (pf_run lm _ ops) as [[s2 d2] rs2] eqn:E2. injection X as <- <- <-. inversion HO. subst. destruct (IH _ _ _ _ _ _ _ _ (A n) R2 E2 H2) as (-> & r' & e' & er' & -> & X & Y).
        split; [reflexivity|]. exists r', e', er'. split; [reflexivity|]. split; [|exact Y]. cbn [bytes_read]. rewrite <- app_assoc, <- X. symmetry. apply firstn_skipn. }
      destruct fails as [k|]; [destruct (k <? Nat.min n (length rest))%nat|]; try (destruct (n <=? length rest)%nat); first [destruct (G _ _ _ E)|exact (H E)].
Qed.

(** Reading: as long as every call succeeds, the data is the file's content from the start, nothing skipped or repeated; HasMore consumes nothing and is
    right about whether anything is left. *)
Theorem C63_reads_in_order : forall lm (d : fs) name f ops rs b fails s d', d name = Some f -> Forall is_reading ops ->
  pf_run lm (PNull, d) (OpOpen name MRead false :: ops ++ [OpHasMore fails]) = ((s, d'), rs ++ [Ok (RBool b)]) -> Forall is_ok_res rs ->
  d' = d /\ exists rest, f = bytes_read rs ++ rest /\ (b = true <-> rest <> []).
Proof.
  intros lm d name f ops rs b fails s d' Hf HR E HO. rewrite run_step in E. cbn [pf_step pf_open] in E. rewrite Hf in E. cbv beta iota in E.
  destruct (pf_run lm (PRead name f false false, d) (ops ++ [OpHasMore fails])) as [[s1 d1] rs1] eqn:E1. injection E as -> -> E.
  assert (HO1 : Forall is_ok_res rs1).
  { assert (Hall : Forall is_ok_res (rs ++ [Ok (RBool b)])) by (apply Forall_app; split; [exact HO|constructor; [eexists; reflexivity|constructor]]). rewrite <- E in Hall. inversion Hall. assumption. }
  assert (Sp : forall ops s0 d0 sF dF rsF, pf_run lm (s0, d0) (ops ++ [OpHasMore fails]) = ((sF, dF), rsF) -> Forall is_ok_res rsF ->
    exists sM dM rsM r, pf_run lm (s0, d0) ops = ((sM, dM), rsM) /\ pf_step lm (sM, dM) (OpHasMore fails) = ((sF, dF), r) /\ rsF = rsM ++ [r]).
  { clear. induction ops as [|op ops IH]; intros s0 d0 sF dF rsF E HO.
    - cbn [app] in E. rewrite run_step in E. destruct (pf_step lm (s0, d0) (OpHasMore fails)) as [[s1 d1] r] eqn:E1. exists s0, d0, [], r. split; [reflexivity|].
      destruct r; cbn [pf_run] in E; injection E as <- <- <-; split; reflexivity || assumption.
    - cbn [app] in E. rewrite run_step in E. destruct (pf_step lm (s0, d0) op) as [[s1 d1] r] eqn:E1. destruct r as [x|c| | |].
      2-5: try destruct (pf_run lm (s1, d1) (ops ++ _)) as [[s2 d2] rs2]; injection E as <- <- <-; inversion HO as [|? ? [? X] ?]; discriminate.
      destruct (pf_run lm (s1, d1) (ops ++ _)) as [[s2 d2] rs2] eqn:E2. injection E as <- <- <-. inversion HO. subst. destruct (IH _ _ _ _ _ E2 H2) as (sM & dM & rsM & r & P1 & P2 & ->).
      exists sM, dM, (Ok x :: rsM), r. rewrite run_step, E1, P1. split; [reflexivity|]. split; [exact P2|reflexivity]. }
  destruct (Sp _ _ _ _ _ _ E1 HO1) as (sM & dM & rsM & r & P1 & P2 & ->). change (Ok RNone :: rsM ++ [r]) with ((Ok RNone :: rsM) ++ [r]) in E. apply app_inj_tail in E. destruct E as [<- ->].
  apply Forall_app in HO1. destruct HO1 as [HO1 _]. destruct (run_reading lm ops name f false false d sM dM rsM ltac:(discriminate) HR P1 HO1) as (-> & rest & eof & err & -> & X & Y).
  cbn [pf_step pf_has_more] in P2. cbn [bytes_read]. destruct eof.
  - injection P2 as <- <- <-. split; [reflexivity|]. exists rest. split; [exact X|]. rewrite (Y eq_refl). split; [discriminate|intros N; contradiction].
  - destruct err; [discriminate|]. destruct fails; [discriminate|]. destruct rest as [|z rest]; injection P2 as <- <- <-; (split; [reflexivity|]); eexists; (split; [exact X|]); split; try discriminate; try reflexivity. intros N; contradiction.
Qed.
Print Assumptions C63_reads_in_order.
(** Whatever failed before, HasMore does not report the end of a file that has unread bytes: a device error is not taken for the end. *)
Theorem C63_no_false_end : forall lm d ops name rest eof err d' rs fails s2 r, Forall benign ops -> pf_run lm (PNull, d) ops = ((PRead name rest eof err, d'), rs) ->
  pf_has_more (PRead name rest eof err) fails = (s2, r) ->
  (r = Ok (RBool false) -> rest = []) /\ (r = Ok (RBool true) -> rest <> [] /\ err = false).
Proof.
  intros lm d ops name rest eof err d' rs fails s2 r HB E Eh. destruct (run_benign lm ops PNull d _ _ rs false I eq_refl HB E) as (HS & _). cbn [sane pf_has_more] in *.
  destruct eof; [injection Eh as <- <-; split; [intros _; apply HS; reflexivity|discriminate]|]. destruct err; [injection Eh as <- <-; split; discriminate|].
  destruct fails; [injection Eh as <- <-; split; discriminate|]. destruct rest; injection Eh as <- <-; split; try discriminate; try reflexivity. intros _. split; [discriminate|reflexivity].
Qed.
Print Assumptions C63_no_false_end.
(** Writing: if every Write and the Close succeed the file holds exactly what was given to Write, and no other file changed. *)
Theorem C63_writes_complete : forall lm (d : fs) name ops fails s d' rs, Forall is_writing ops ->
  pf_run lm (PNull, d) (OpOpen name MWrite false :: ops ++ [OpCloseF fails]) = ((s, d'), rs) -> Forall is_ok_res rs ->
  s = PNull /\ d' name = Some (bytes_given ops) /\ forall n, n <> name -> d' n = d n.
Proof.
  intros lm d name ops fails s d' rs HW E HO. rewrite run_step in E. cbn [pf_step pf_open] in E.
  destruct (pf_run lm (PWrite name [], fs_set d name []) (ops ++ [OpCloseF fails])) as [[s1 d1] rs1] eqn:E1. injection E as <- <- <-. inversion HO as [|? ? _ HO1]. subst.
  assert (G : forall ops w d0 sF dF rsF, Forall is_writing ops -> pf_run lm (PWrite name w, d0) (ops ++ [OpCloseF fails]) = ((sF, dF), rsF) -> Forall is_ok_res rsF -> sF = PNull /\ dF = fs_set d0 name (w ++ bytes_given ops)).
  { clear. induction ops as [|op ops IH]; intros w d0 sF dF rsF HW E HO.
    - cbn [app] in E. rewrite run_step in E. cbn [pf_step pf_close] in E. cbn [bytes_given]. rewrite app_nil_r. destruct fails; cbn [pf_run] in E; injection E as <- <- <-; [inversion HO as [|? ? [? X] ?]; discriminate|split; reflexivity].
    - inversion HW as [|? ? W1 W2]. subst. destruct op as [| | | | |content n fl|]; try destruct W1. cbn [app] in E. rewrite run_step in E. cbn [pf_step pf_write] in E.
      assert (B : forall sd', (let (sd'', rs0) := pf_run lm sd' (ops ++ [OpCloseF fails]) in (sd'', Err Internal :: rs0)) = ((sF, dF), rsF) -> False).
      { intros sd' X. destruct (pf_run lm sd' _) as [[? ?] ?]. injection X as <- <- <-. inversion HO as [|? ? [? Y] ?]. discriminate. }
      assert (H : (let (sd'', rs0) := pf_run lm (PWrite name (w ++ firstn n content), d0) (ops ++ [OpCloseF fails]) in (sd'', Ok RNone :: rs0)) = ((sF, dF), rsF) -> sF = PNull /\ dF = fs_set d0 name (w ++ bytes_given (OpWriteF content n fl :: ops))).
      { intros X. destruct (pf_run lm (PWrite name (w ++ firstn n content), d0) _) as [[s2 d2] rs2] eqn:E2. injection X as <- <- <-. inversion HO. subst. cbn [bytes_given]. rewrite app_assoc. eapply IH; eassumption. }
      destruct (length content <? n)%nat; [injection E as <- <- <-; inversion HO as [|? ? [? Y] ?]; discriminate|].
      destruct fl as [k|]; [destruct (k <? n)%nat|]; first [destruct (B _ E)|exact (H E)]. }
  destruct (G _ _ _ _ _ _ HW E1 HO1) as [-> ->]. cbn [app]. split; [reflexivity|]. split; [unfold fs_set; rewrite bytes_eqb_refl; reflexivity|].
  intros n Hn. unfold fs_set. destruct (bytes_eqb n name) eqn:En; [apply bytes_eqb_eq in En; contradiction|reflexivity].
Qed.
Print Assumptions C63_writes_complete.

Lemma fr_varint_cases fl n : forall f c, (exists s t r c', fr_varint fl n f c = Ok (s, t, r, c') /\ varint_loop n f = Ok (s, t, r)) \/ fr_varint fl n f c = Err Internal \/
  (exists x, fr_varint fl n f c = Err x /\ varint_loop n f = Err x).
Proof.
  induction n as [|n IH]; intros f c; [right; right; exists InvalidArgument; split; reflexivity|]. cbn [fr_varint varint_loop].
  destruct (fl c); [right; left; reflexivity|]. destruct f as [|b f]; [left; do 4 eexists; split; reflexivity|]. destruct (fl (S c)); [right; left; reflexivity|].
  destruct (bz b <? 128); [left; do 4 eexists; split; reflexivity|]. destruct (IH f (S (S c))) as [(s & t & r & c' & E1 & E2)|[E1|(x & E1 & E2)]]; rewrite E1; try rewrite E2; cbn [bind].
  - left. do 4 eexists. split; reflexivity.
  - right. left. reflexivity.
  - right. right. exists x. split; reflexivity.
Qed.
Lemma fr_record_cases fl f c : (exists r f' c', fr_record fl f c = Ok (r, f', c') /\ read_record f = Ok (r, f')) \/ fr_record fl f c = Err Internal \/
  (exists x, fr_record fl f c = Err x /\ read_record f = Err x) \/ (fr_record fl f c = UB /\ read_record f = UB).
Proof.
  unfold fr_record, read_record, extract_varint32. destruct (fr_varint_cases fl 5 f c) as [(s & t & r & c' & E1 & E2)|[E1|(x & E1 & E2)]]; rewrite E1; try rewrite E2; cbn [bind].
  - destruct t; cbn [bind]; [|right; right; right; split; reflexivity]. destruct (fl c'); [right; left; reflexivity|].
    unfold f_read. destruct (Z.to_nat (read_varint32 s) <=? length r)%nat; cbn [bind]; [left; do 3 eexists; split; reflexivity|right; left; reflexivity].
  - right. left. reflexivity.
  - right. right. left. exists x. split; reflexivity.
Qed.
(** The reading loop of a record file under arbitrary device faults: if it ends without an error it has delivered exactly the records of the file; in any
    case what it delivered is a beginning of them, and a fault shows as an error. *)
Theorem C63_record_loop : forall fl f c, let (rs, e) := fr_read_all fl (S (length f)) f c in
  prefix_of rs (fst (read_records f)) /\ (e = Ok tt -> read_records f = (rs, Ok tt)) /\ (e = snd (read_records f) \/ e = Err Internal).
Proof.
  intros fl f c. unfold read_records. generalize (S (length f)). intros k. revert f c. induction k as [|k IH]; intros f c.
  - split; [exists []; reflexivity|]. split; [discriminate|left; reflexivity].
  - cbn [fr_read_all read_all]. destruct (fl c); [split; [eexists; reflexivity|]; split; [discriminate|right; reflexivity]|].
    destruct (f_has_more f); [|split; [exists []; reflexivity|]; split; [reflexivity|left; reflexivity]].
    destruct (fr_record_cases fl f (S c)) as [(r & f' & c' & E1 & E2)|[E1|[(x & E1 & E2)|[E1 E2]]]]; rewrite E1; try rewrite E2.
    + specialize (IH f' c'). destruct (fr_read_all fl k f' c') as [rs e]. destruct (read_all k f') as [rs' e']. cbn [fst snd] in *. destruct IH as ((z & P) & Q & R).
      split; [exists z; cbn [app]; rewrite P; reflexivity|]. split; [intros X; injection (Q X) as -> ->; reflexivity|exact R].
    + split; [eexists; reflexivity|]. split; [discriminate|right; reflexivity].
    + split; [exists []; reflexivity|]. split; [discriminate|left; reflexivity].
    + split; [exists []; reflexivity|]. split; [discriminate|left; reflexivity].
Qed.
Print Assumptions C63_record_loop.
Theorem C63_record_loop_no_faults : forall f c, fr_read_all (fun _ => false) (S (length f)) f c = read_records f.
Proof.
  assert (V : forall n f c, match fr_varint (fun _ => false) n f c with Ok (s, t, r, _) => Ok (s, t, r) | Err x => Err x | Crash => Crash | UB => UB | Diverge => Diverge end = varint_loop n f).
  { induction n as [|n IH]; intros f c; [reflexivity|]. cbn [fr_varint varint_loop]. destruct f as [|b f]; [reflexivity|]. destruct (bz b <? 128); [reflexivity|].
    specialize (IH f (S (S c))). destruct (fr_varint _ n f (S (S c))) as [[[[s t] r] c']| | | |]; rewrite <- IH; reflexivity. }
  intros f c. unfold read_records. generalize (S (length f)). intros k. revert f c. induction k as [|k IH]; intros f c; [reflexivity|].
  cbn [fr_read_all read_all]. destruct (f_has_more f); [|reflexivity]. unfold fr_record, read_record, extract_varint32. rewrite <- (V 5%nat f (S c)).
  destruct (fr_varint _ 5 f (S c)) as [[[[s t] r] c']| | | |]; cbn [bind]; try reflexivity. destruct t; cbn [bind]; [|reflexivity]. destruct (f_read _ r) as [[x f2]| | | |]; cbn [bind]; try reflexivity.
  rewrite IH. reflexivity.
Qed.
Print Assumptions C63_record_loop_no_faults.
(** A Read that succeeds returns exactly as many bytes as were asked for, whatever happened before and whatever faults occur; one that asks for more than is left fails. *)
Theorem C63_read_exact : forall lm d ops s d' rs n fails s2 r, Forall benign ops -> pf_run lm (PNull, d) ops = ((s, d'), rs) -> pf_step lm (s, d') (OpRead n fails) = (s2, r) ->
  (forall x, r = Ok (RBytes x) -> length x = n) /\ (forall b, r <> Ok (RBool b)) /\ (r = Ok RNone -> False) /\
  (forall name rest eof err, s = PRead name rest eof err -> (length rest < n)%nat -> r = Err Internal) /\
  (forall name rest eof err, s = PRead name rest eof err -> fails = None -> (n <= length rest)%nat -> r = Ok (RBytes (firstn n rest))).
Proof.
  intros lm d ops s d' rs n fails s2 r HB E Es. destruct (run_benign lm ops PNull d s d' rs false I eq_refl HB E) as (HS & _). clear E HB. cbn [pf_step] in Es.
  destruct s as [|name rest eof err|name w|]; cbn [pf_read] in Es.
  - injection Es as _ <-. repeat split; try discriminate.
  - assert (F : (n <= length rest)%nat -> length (firstn n rest) = n) by (intros H; apply firstn_length_le, H).
    destruct fails as [k|]; [destruct (Nat.ltb_spec k (Nat.min n (length rest)))|]; try (destruct (Nat.leb_spec n (length rest)));
      injection Es as _ <-; (split; [intros x H'; try discriminate; injection H' as <-; auto|]); (split; [discriminate|]); (split; [discriminate|]); split; intros nm r0 e0 er0 Q; injection Q as <- <- <- <-; try reflexivity; try discriminate; lia.
  - destruct (Nat.eqb_spec n 0) as [-> |]; injection Es as _ <-; repeat split; try discriminate. intros x H. injection H as <-. reflexivity.
  - injection Es as _ <-. repeat split; discriminate.
Qed.
Print Assumptions C63_read_exact.

Example C63_ex : let d := fs_set (fun _ => None) [x61] [x68; x69; x0a; x79] in
  snd (pf_run LINE_MAX (PNull, d) [OpHasMore false; OpOpen [x62] MRead false; OpOpen [x61] MRead false; OpHasMore false; OpRead 2 None; OpReadLine false; OpRead 1 (Some 0%nat);
    OpHasMore false; OpRead 1 None; OpRead 1 None; OpHasMore false; OpCloseF None; OpOpen [x62] MWrite false; OpWriteF [x01; x02] 2 None; OpReadLine false; OpCloseF None; OpOpen [x62] MRead false; OpRead 2 None; OpDestroy]) =
  [Err Internal; Err NotFound; Ok RNone; Ok (RBool true); Ok (RBytes [x68; x69]); Ok (RBytes []); Err Internal;
   Err Internal; Ok (RBytes [x79]); Err Internal; Ok (RBool false); Ok RNone; Ok RNone; Ok RNone; Err Internal; Ok RNone; Ok RNone; Ok (RBytes [x01; x02]); Ok RNone].
Proof. vm_compute. reflexivity. Qed.
