(** Lemmas about memory that calls share. *)
From Verif Require Import Base M_BigNum M_Num M_EC M_Group M_Cipher M_Paillier M_Protocol M_Conc S_Conc L_Conc M_Race S_Race.

Lemma set_nth_len {A} (l : list A) i x : length (set_nth i x l) = length l.
Proof. revert i. induction l as [|y l IH]; intros [|i]; cbn [set_nth length]; congruence. Qed.
Lemma map_set_nth {A B} (f : A -> B) (l : list A) i x : map f (set_nth i x l) = set_nth i (f x) (map f l).
Proof. revert i. induction l as [|y l IH]; intros [|i]; cbn [set_nth map]; congruence. Qed.
Lemma in_set_nth {A} (l : list A) i x y : In y (set_nth i x l) -> y = x \/ In y l.
Proof. revert i. induction l as [|z l IH]; intros [|i]; cbn [set_nth In]; intros H; [tauto|tauto|destruct H; auto|]. destruct H as [H|H]; [auto|]. apply IH in H. tauto. Qed.
Lemma in_set_same {A} (l : list A) i x y : nth_error l i = Some y -> In x (set_nth i x l).
Proof. intros H. eapply nth_error_In. apply nth_set_same with (y := y). exact H. Qed.

Lemma key_at_app h c a : (a < length h)%nat -> key_at (h ++ [c]) a = key_at h a.
Proof. intros H. unfold key_at. rewrite nth_error_app1 by exact H. reflexivity. Qed.
Lemma key_at_last h c : key_at (h ++ [Some c]) (length h) = Some c.
Proof. unfold key_at. rewrite nth_error_app2, Nat.sub_diag by lia. reflexivity. Qed.
Lemma key_at_freed h a : key_at (set_nth a None h) a = None.
Proof.
  unfold key_at. destruct (nth_error h a) as [o|] eqn:E; [erewrite nth_set_same by exact E; reflexivity|].
  assert (nth_error (set_nth a None h) a = None) as -> by (apply nth_error_None; rewrite set_nth_len; apply nth_error_None; exact E). reflexivity.
Qed.
Lemma key_at_other h a b : a <> b -> key_at (set_nth a None h) b = key_at h b.
Proof. intros N. unfold key_at. rewrite nth_set_other by exact N. reflexivity. Qed.
Lemma key_at_in h a : key_at h a <> None -> (a < length h)%nat.
Proof. unfold key_at. intros H. apply nth_error_Some. destruct (nth_error h a); congruence. Qed.

(** What replacing the key does: the new one is in place, the old one is freed, all others are as before. *)
Lemma replaced me c : me_ptr (replace_key me c) = Some (length (me_heap me)) /\ length (me_heap (replace_key me c)) = S (length (me_heap me)) /\
  key_at (me_heap (replace_key me c)) (length (me_heap me)) = Some c /\
  (forall a, (a < length (me_heap me))%nat -> me_ptr me = Some a -> key_at (me_heap (replace_key me c)) a = None) /\
  (forall a, (a < length (me_heap me))%nat -> me_ptr me <> Some a -> key_at (me_heap (replace_key me c)) a = key_at (me_heap me) a).
Proof.
  unfold replace_key. cbn [me_ptr me_heap]. set (h' := match me_ptr me with Some a => set_nth a None (me_heap me) | None => me_heap me end).
  assert (Lh : length h' = length (me_heap me)) by (unfold h'; destruct (me_ptr me); [apply set_nth_len|reflexivity]).
  split; [reflexivity|]. split; [rewrite app_length, Lh; cbn; lia|]. split; [rewrite <- Lh; apply key_at_last|]. split; intros a Ha Hp; rewrite key_at_app by lia; unfold h'.
  - rewrite Hp. apply key_at_freed.
  - destruct (me_ptr me) as [b|]; [|reflexivity]. apply key_at_other. congruence.
Qed.

Section Race.
Variable C : ec.
Variable X : externals.
Variable sqrt_p : Z -> Z.
Variable fuel : nat.
Variable flag : bool.
Variable srt : list elem -> list elem.
Notation cstep := (call_step C X sqrt_p fuel flag srt).
Notation mcstep := (mem_call_step C X sqrt_p fuel flag srt).
Notation mstep := (mem_step C X sqrt_p fuel flag srt).
Notation mrun := (mem_run C X sqrt_p fuel flag srt).
Notation lstep := (mem_locked_step C X sqrt_p fuel flag srt).
Notation lrun := (mem_locked_run C X sqrt_p fuel flag srt).

(** The steps of [M_Conc] other than making a key leave the key alone; only the last one sets the flag. *)
Lemma cstep_frame st m r q : q <> KeyAbsent -> sv_inputs (fst (cstep st m r q)) = sv_inputs st /\ sv_cipher (fst (cstep st m r q)) = sv_cipher st /\
  (sv_finished (fst (cstep st m r q)) = sv_finished st \/ exists size sum, q = Finishing size sum).
Proof.
  intros N. destruct q as [| | |todo done|pk todo done|size sum|rp so]; cbn [call_step]; try congruence; try (destruct m as [[|? ? ?|]|]); try (destruct todo); cbn [fst snd sv_inputs sv_cipher sv_finished]; eauto 10.
Qed.

Definition reads_ok (me : memory) (p : mprogress) : Prop := match p with Using a q => uses_key q = true /\ (a < length (me_heap me))%nat /\ (me_ptr me = Some a \/ key_at (me_heap me) a = None) | _ => True end.
Definition consistent (s : msystem) : Prop := sound (ms_memory s) /\ forall c, In c (ms_calls s) -> reads_ok (ms_memory s) (mc_at c).

Lemma absent_dec q : q = KeyAbsent \/ q <> KeyAbsent.
Proof. destruct q; (left; reflexivity) || (right; discriminate). Qed.
Lemma mcstep_at me m r q : q <> KeyAbsent -> mcstep me m r (At q) = if uses_key q then (me, match me_ptr me with Some a => Using a q | None => At (Done None UB) end) else
  let (st, q') := cstep (view me) m r q in ({| me_inputs := me_inputs me; me_ptr := me_ptr me; me_heap := me_heap me; me_finished := sv_finished st |}, At q').
Proof. intros N. destruct q; try congruence; reflexivity. Qed.

(** A step is either a pure one, or the assignment of a new key. *)
Lemma mcstep_cases me m r p me' p' : mcstep me m r p = (me', p') ->
  (exists c, p = At KeyAbsent /\ cipher_new C (sr_key r) 0 = Ok c /\ me' = replace_key me c /\ p' = At (Encrypting (me_inputs me) [])) \/
  (me_inputs me' = me_inputs me /\ me_ptr me' = me_ptr me /\ me_heap me' = me_heap me).
Proof.
  destruct p as [q|a q|].
  - assert (G : forall q, (if uses_key q then (me, match me_ptr me with Some a => Using a q | None => At (Done None UB) end) else
        let (st, q') := cstep (view me) m r q in ({| me_inputs := me_inputs me; me_ptr := me_ptr me; me_heap := me_heap me; me_finished := sv_finished st |}, At q')) = (me', p') ->
        me_inputs me' = me_inputs me /\ me_ptr me' = me_ptr me /\ me_heap me' = me_heap me).
    { intros q0. destruct (uses_key q0); [intros E; injection E as <- _; auto|]. destruct (cstep (view me) m r q0). intros E. injection E as <- _. auto. }
    destruct (absent_dec q) as [->|N]; [|rewrite mcstep_at by exact N; intros E; right; exact (G _ E)]. cbn [mem_call_step]. intros E. destruct (cipher_new C (sr_key r) 0) as [c|?| | | ] eqn:Ec; injection E as <- <-; [left; exists c; auto|right; auto..].
  - cbn [mem_call_step]. destruct (key_at (me_heap me) a); intros E; injection E as <- <-; auto.
  - cbn [mem_call_step]. intros E. injection E as <- <-. auto.
Qed.

Lemma reads_kept me m r p me' p' x : mcstep me m r p = (me', p') -> reads_ok me x -> reads_ok me' x.
Proof.
  intros E H. destruct x as [q|a q|]; try exact I. destruct H as (U & Ha & H). split; [exact U|].
  destruct (mcstep_cases _ _ _ _ _ _ E) as [(c & _ & _ & -> & _)|(_ & Ep & Eh)].
  - destruct (replaced me c) as (R1 & R2 & R3 & R4 & R5). split; [lia|]. right. destruct H as [H|H]; [apply R4; assumption|].
    destruct (me_ptr me) as [b|] eqn:Eb; [|rewrite R5 by congruence; exact H]. destruct (Nat.eq_dec b a) as [->|N]; [apply R4; [assumption|reflexivity]|rewrite R5 by congruence; exact H].
  - rewrite Ep, Eh. auto.
Qed.
Lemma sound_kept me m r p me' p' : mcstep me m r p = (me', p') -> sound me -> sound me'.
Proof.
  intros E H a Ea. destruct (mcstep_cases _ _ _ _ _ _ E) as [(c & _ & _ & -> & _)|(_ & Ep & Eh)].
  - destruct (replaced me c) as (R1 & R2 & R3 & _). rewrite R1 in Ea. injection Ea as <-. congruence.
  - rewrite Eh. apply H. congruence.
Qed.
Lemma reads_made me m r p me' p' : sound me -> mcstep me m r p = (me', p') -> reads_ok me' p'.
Proof.
  intros S E. destruct p as [q|a q|].
  - assert (G : forall q, (if uses_key q then (me, match me_ptr me with Some a => Using a q | None => At (Done None UB) end) else
        let (st, q') := cstep (view me) m r q in ({| me_inputs := me_inputs me; me_ptr := me_ptr me; me_heap := me_heap me; me_finished := sv_finished st |}, At q')) = (me', p') -> reads_ok me' p').
    { intros q0. destruct (uses_key q0) eqn:U; [|destruct (cstep (view me) m r q0); intros Q; injection Q as _ <-; exact I]. intros Q. injection Q as <- <-. destruct (me_ptr me) as [a|] eqn:Ea; [|exact I].
      split; [exact U|]. split; [apply key_at_in, S, Ea|left; exact Ea]. }
    destruct (absent_dec q) as [->|N]; [|rewrite mcstep_at in E by exact N; exact (G _ E)]. cbn [mem_call_step] in E. destruct (cipher_new C (sr_key r) 0); injection E as <- <-; exact I.
  - cbn [mem_call_step] in E. destruct (key_at (me_heap me) a); injection E as <- <-; exact I.
  - cbn [mem_call_step] in E. injection E as <- <-. exact I.
Qed.

Lemma consistent_step s i : consistent s -> consistent (mstep s i).
Proof.
  intros [S R]. unfold mem_step. destruct (nth_error (ms_calls s) i) as [c|] eqn:Ei; [|split; assumption]. destruct (mcstep (ms_memory s) (mc_msg c) (mc_rand c) (mc_at c)) as [me p] eqn:E.
  split; [exact (sound_kept _ _ _ _ _ _ E S)|]. cbn [ms_calls ms_memory]. intros d Hd. apply in_set_nth in Hd. destruct Hd as [->|Hd]; [exact (reads_made _ _ _ _ _ _ S E)|exact (reads_kept _ _ _ _ _ _ _ E (R d Hd))].
Qed.
Lemma freed_stays s i : no_use_after_free (ms_calls (mstep s i)) -> no_use_after_free (ms_calls s).
Proof.
  intros H c Hc E. unfold mem_step in H. destruct (nth_error (ms_calls s) i) as [d|] eqn:Ei; [|exact (H c Hc E)].
  destruct (mcstep (ms_memory s) (mc_msg d) (mc_rand d) (mc_at d)) as [me p] eqn:Es. cbn [ms_calls] in H. destruct (In_nth_error _ _ Hc) as (j & Hj). destruct (Nat.eq_dec i j) as [<-|N].
  - assert (d = c) by congruence. subst d. rewrite E in Es. cbn [mem_call_step] in Es. injection Es as _ <-. apply (H {| mc_msg := mc_msg c; mc_rand := mc_rand c; mc_at := UsedFreed |}); [exact (in_set_same _ _ _ _ Ei)|reflexivity].
  - apply (H c); [|exact E]. eapply nth_error_In. rewrite nth_set_other by exact N. exact Hj.
Qed.

(** A step that uses no freed key is a step of [M_Conc], or none. *)
Lemma plain_step s i : consistent s -> no_use_after_free (ms_calls (mstep s i)) ->
  plain_system (mstep s i) = plain_system s \/ plain_system (mstep s i) = sys_step C X sqrt_p fuel flag srt (plain_system s) i.
Proof.
  intros [S R] F. unfold mem_step in *. destruct (nth_error (ms_calls s) i) as [c|] eqn:Ei; [|left; reflexivity].
  assert (Pi : nth_error (sy_calls (plain_system s)) i = Some (plain c)) by (cbn [plain_system sy_calls]; rewrite nth_error_map, Ei; reflexivity).
  destruct (mcstep (ms_memory s) (mc_msg c) (mc_rand c) (mc_at c)) as [me p] eqn:E. cbn [ms_calls] in F.
  assert (Fp : p <> UsedFreed) by (exact (F _ (in_set_same _ _ _ _ Ei))).
  assert (G : forall q, match mc_at c with At p | Using _ p => p | UsedFreed => Done None UB end = q -> cstep (view (ms_memory s)) (mc_msg c) (mc_rand c) q = (view me, match p with At p | Using _ p => p | UsedFreed => Done None UB end) ->
    plain_system {| ms_memory := me; ms_calls := set_nth i {| mc_msg := mc_msg c; mc_rand := mc_rand c; mc_at := p |} (ms_calls s) |} = sys_step C X sqrt_p fuel flag srt (plain_system s) i).
  { intros q Eq Es. erewrite sys_step_at by (first [exact Pi|cbn [plain_system sy_server plain ca_msg ca_rand ca_at]; rewrite Eq; exact Es]).
    unfold plain_system. cbn [ms_memory ms_calls sy_calls]. rewrite map_set_nth. reflexivity. }
  assert (Same : me = ms_memory s -> match p with At p | Using _ p => p | UsedFreed => Done None UB end = match mc_at c with At p | Using _ p => p | UsedFreed => Done None UB end ->
    plain_system {| ms_memory := me; ms_calls := set_nth i {| mc_msg := mc_msg c; mc_rand := mc_rand c; mc_at := p |} (ms_calls s) |} = plain_system s).
  { intros -> Eq. unfold plain_system. cbn [ms_memory ms_calls]. f_equal. rewrite map_set_nth. apply set_nth_same. rewrite nth_error_map, Ei. cbn [option_map]. f_equal. unfold plain. cbn [mc_msg mc_rand mc_at]. rewrite Eq. reflexivity. }
  destruct (mc_at c) as [q|a q|] eqn:Ec.
  - assert (H : forall q, q <> KeyAbsent -> True -> (if uses_key q then (ms_memory s, match me_ptr (ms_memory s) with Some a => Using a q | None => At (Done None UB) end) else
        let (st, q') := cstep (view (ms_memory s)) (mc_msg c) (mc_rand c) q in ({| me_inputs := me_inputs (ms_memory s); me_ptr := me_ptr (ms_memory s); me_heap := me_heap (ms_memory s); me_finished := sv_finished st |}, At q')) = (me, p) ->
        (me = ms_memory s /\ match p with At p | Using _ p => p | UsedFreed => Done None UB end = q) \/ cstep (view (ms_memory s)) (mc_msg c) (mc_rand c) q = (view me, match p with At p | Using _ p => p | UsedFreed => Done None UB end)).
    { intros q0 N0 _. destruct (uses_key q0) eqn:U.
      - intros Q. injection Q as <- <-. destruct (me_ptr (ms_memory s)) as [a|] eqn:Ea; [left; auto|]. right.
        assert (Ev : sv_cipher (view (ms_memory s)) = None) by (cbn [view sv_cipher]; rewrite Ea; reflexivity).
        destruct q0 as [| | |[|x todo] done|pk [|x todo] done|size sum|rp so]; try discriminate U; cbn [call_step]; rewrite Ev; reflexivity.
      - destruct (cstep (view (ms_memory s)) (mc_msg c) (mc_rand c) q0) as [st q'] eqn:Es. intros Q. injection Q as <- <-. right. f_equal.
        destruct (cstep_frame (view (ms_memory s)) (mc_msg c) (mc_rand c) q0 N0) as (F1 & F2 & _). rewrite Es in F1, F2. cbn [fst] in F1, F2. destruct st as [i0 c0 f0]. cbn [sv_inputs sv_cipher sv_finished] in *. subst. reflexivity. }
    destruct (absent_dec q) as [->|N].
    + cbn [mem_call_step] in E. right. apply (G _ eq_refl). cbn [call_step]. destruct (cipher_new C (sr_key (mc_rand c)) 0) as [k|?| | | ] eqn:Ek; injection E as <- <-; try reflexivity. f_equal.
      destruct (replaced (ms_memory s) k) as (R1 & _ & R3 & _). unfold view at 3. rewrite R1, R3. reflexivity.
    + rewrite mcstep_at in E by exact N. destruct (H q N I E) as [[H1 H2]|H1].
      * left. apply Same; [exact H1|exact H2].
      * right. exact (G _ eq_refl H1).
  - cbn [mem_call_step] in E. specialize (R c (nth_error_In _ _ Ei)). rewrite Ec in R. destruct R as (U & Ha & R). destruct (key_at (me_heap (ms_memory s)) a) as [k|] eqn:Ek; [|injection E as <- <-; congruence].
    destruct R as [Ep|]; [|discriminate]. injection E as <- <-. right. apply (G _ eq_refl).
    assert (Ev : view (ms_memory s) = {| sv_inputs := me_inputs (ms_memory s); sv_cipher := Some k; sv_finished := me_finished (ms_memory s) |}) by (unfold view; rewrite Ep, Ek; reflexivity).
    rewrite <- Ev. assert (Eq : fst (cstep (view (ms_memory s)) (mc_msg c) (mc_rand c) q) = view (ms_memory s)).
    { destruct q as [| | |[|x todo] done|pk [|x todo] done|size sum|rp so]; try discriminate U; reflexivity. }
    destruct (cstep (view (ms_memory s)) (mc_msg c) (mc_rand c) q) as [st q'] eqn:Es. cbn [fst snd] in *. rewrite Eq. reflexivity.
  - cbn [mem_call_step] in E. exfalso. injection E as <- <-. congruence.
Qed.

Lemma mstep_nth s i c me p : nth_error (ms_calls s) i = Some c -> mcstep (ms_memory s) (mc_msg c) (mc_rand c) (mc_at c) = (me, p) ->
  mstep s i = {| ms_memory := me; ms_calls := set_nth i {| mc_msg := mc_msg c; mc_rand := mc_rand c; mc_at := p |} (ms_calls s) |}.
Proof. intros Hi E. unfold mem_step. rewrite Hi, E. reflexivity. Qed.
(** The state of the memory and of two calls after a step of the first. *)
Definition at_state (s : msystem) (me : memory) (i : nat) (c : mcall) (j : nat) (d : mcall) : Prop := ms_memory s = me /\ nth_error (ms_calls s) i = Some c /\ nth_error (ms_calls s) j = Some d.
Lemma go_left s me i j m r p me' p' d : i <> j -> at_state s me i {| mc_msg := m; mc_rand := r; mc_at := p |} j d -> mcstep me m r p = (me', p') ->
  at_state (mstep s i) me' i {| mc_msg := m; mc_rand := r; mc_at := p' |} j d.
Proof.
  intros N (Em & Ei & Ej) E. rewrite (mstep_nth s i _ me' p' Ei) by (cbn [mc_msg mc_rand mc_at]; rewrite Em; exact E). cbn [mc_msg mc_rand]. split; [reflexivity|]. cbn [ms_calls]. split; [exact (nth_set_same _ _ _ _ Ei)|rewrite nth_set_other by exact N; exact Ej].
Qed.
Lemma at_swap s me i c j d : at_state s me i c j d -> at_state s me j d i c.
Proof. intros (A & B & D). split; auto. Qed.
Lemma go_right s me i j m r p me' p' c : i <> j -> at_state s me i c j {| mc_msg := m; mc_rand := r; mc_at := p |} -> mcstep me m r p = (me', p') ->
  at_state (mstep s j) me' i c j {| mc_msg := m; mc_rand := r; mc_at := p' |}.
Proof. intros N H E. apply at_swap. apply (go_left s me j i m r p me' p' c); [congruence|apply at_swap, H|exact E]. Qed.

Lemma plain_run schedule : forall s, consistent s -> no_use_after_free (ms_calls (mrun s schedule)) -> exists schedule', sys_run C X sqrt_p fuel flag srt (plain_system s) schedule' = plain_system (mrun s schedule).
Proof.
  induction schedule as [|i schedule IH]; intros s Hs F; [exists []; reflexivity|]. cbn [mem_run fold_left] in F |- *. fold (mrun (mstep s i) schedule) in F |- *.
  assert (F1 : no_use_after_free (ms_calls (mstep s i))).
  { clear - F. revert F. generalize (mstep s i). induction schedule as [|j schedule IH]; intros s0 F; [exact F|]. cbn [mem_run fold_left] in F. fold (mrun (mstep s0 j) schedule) in F. apply (freed_stays s0 j), IH, F. }
  destruct (IH (mstep s i) (consistent_step s i Hs) F) as (sch & E). destruct (plain_step s i Hs F1) as [Q|Q]; rewrite Q in E; [exists sch; exact E|]. exists (i :: sch). exact E.
Qed.

(** Between uses of the key. *)
Definition settled (s : msystem) : Prop := sound (ms_memory s) /\ forall c, In c (ms_calls s) -> exists p, mc_at c = At p.
Lemma settled_consistent s : settled s -> consistent s.
Proof. intros [S H]. split; [exact S|]. intros c Hc. destruct (H c Hc) as (p & ->). exact I. Qed.
Lemma settled_step s i c me p : settled s -> nth_error (ms_calls s) i = Some c -> mcstep (ms_memory s) (mc_msg c) (mc_rand c) (mc_at c) = (me, At p) -> settled (mstep s i).
Proof.
  intros [S H] Ei E. rewrite (mstep_nth s i c _ _ Ei E). split; [exact (sound_kept _ _ _ _ _ _ E S)|]. cbn [ms_calls]. intros d Hd. apply in_set_nth in Hd. destruct Hd as [->|Hd]; [exists p; reflexivity|exact (H d Hd)].
Qed.
Lemma settled_nofree s : settled s -> no_use_after_free (ms_calls s).
Proof. intros [_ H] c Hc E. destruct (H c Hc) as (p & Q). congruence. Qed.

(** Every step of [M_Conc] is one step here, or two. *)
Lemma fine_step s i : settled s -> exists n, settled (mrun s (repeat i n)) /\ plain_system (mrun s (repeat i n)) = sys_step C X sqrt_p fuel flag srt (plain_system s) i.
Proof.
  intros Hs. pose proof Hs as [S H]. destruct (nth_error (ms_calls s) i) as [[m r at_]|] eqn:Ei.
  2:{ exists O. split; [exact Hs|]. unfold sys_step. cbn [plain_system sy_calls]. rewrite nth_error_map, Ei. reflexivity. }
  destruct (H _ (nth_error_In _ _ Ei)) as (q & Eq). cbn [mc_at] in Eq. subst at_.
  assert (Pi : nth_error (sy_calls (plain_system s)) i = Some {| ca_msg := m; ca_rand := r; ca_at := q |}) by (cbn [plain_system sy_calls]; rewrite nth_error_map, Ei; reflexivity).
  destruct (absent_dec q) as [->|N].
  - exists 1%nat. cbn [repeat mem_run fold_left]. destruct (mcstep (ms_memory s) m r (At KeyAbsent)) as [me p] eqn:E. pose proof E as E0. cbn [mem_call_step] in E.
    assert (Q : exists q', p = At q' /\ cstep (view (ms_memory s)) m r KeyAbsent = (view me, q')).
    { cbn [call_step]. destruct (cipher_new C (sr_key r) 0) as [k|?| | | ]; injection E as <- <-; (eexists; split; [reflexivity|]); try reflexivity. f_equal.
      destruct (replaced (ms_memory s) k) as (R1 & _ & R3 & _). unfold view at 3. rewrite R1, R3. reflexivity. }
    destruct Q as (q' & -> & Q). split; [exact (settled_step s i _ me q' Hs Ei E0)|].
    rewrite (mstep_nth s i _ _ _ Ei E0). erewrite sys_step_at by (first [exact Pi|exact Q]). unfold plain_system. cbn [ms_memory ms_calls sy_calls]. rewrite map_set_nth. reflexivity.
  - destruct (uses_key q) eqn:U.
    + destruct (me_ptr (ms_memory s)) as [a|] eqn:Ea.
      * exists 2%nat. cbn [repeat mem_run fold_left]. assert (E1 : mcstep (ms_memory s) m r (At q) = (ms_memory s, Using a q)) by (rewrite mcstep_at by exact N; rewrite U, Ea; reflexivity).
        rewrite (mstep_nth s i _ _ _ Ei E1). cbn [mc_msg mc_rand]. set (s1 := {| ms_memory := ms_memory s; ms_calls := set_nth i {| mc_msg := m; mc_rand := r; mc_at := Using a q |} (ms_calls s) |}).
        assert (Ei1 : nth_error (ms_calls s1) i = Some {| mc_msg := m; mc_rand := r; mc_at := Using a q |}) by (exact (nth_set_same _ _ _ _ Ei)).
        destruct (key_at (me_heap (ms_memory s)) a) as [k|] eqn:Ek; [|exfalso; exact (S a Ea Ek)].
        assert (Ev : view (ms_memory s) = {| sv_inputs := me_inputs (ms_memory s); sv_cipher := Some k; sv_finished := me_finished (ms_memory s) |}) by (unfold view; rewrite Ea, Ek; reflexivity).
        assert (E2 : mcstep (ms_memory s1) m r (Using a q) = (ms_memory s, At (snd (cstep (view (ms_memory s)) m r q)))) by (cbn [mem_call_step s1 ms_memory]; rewrite Ek, <- Ev; reflexivity).
        rewrite (mstep_nth s1 i _ _ _ Ei1 E2). cbn [mc_msg mc_rand s1 ms_calls].
        assert (Two : forall (A : Type) (l : list A) x y, set_nth i x (set_nth i y l) = set_nth i x l) by (clear; intros A l; revert i; induction l as [|z l IH]; intros [|i] x y; cbn [set_nth]; congruence).
        rewrite Two. assert (Eq : fst (cstep (view (ms_memory s)) m r q) = view (ms_memory s)) by (destruct q as [| | |[|x todo] done|pk [|x todo] done|size sum|rp so]; try discriminate U; reflexivity).
        split.
        { split; [exact S|]. cbn [ms_calls]. intros d Hd. apply in_set_nth in Hd. destruct Hd as [->|Hd]; [eexists; reflexivity|exact (H d Hd)]. }
        destruct (cstep (view (ms_memory s)) m r q) as [st q'] eqn:Es. cbn [fst snd] in *. subst st. erewrite sys_step_at by (first [exact Pi|exact Es]). unfold plain_system. cbn [ms_memory ms_calls sy_calls]. rewrite map_set_nth. reflexivity.
      * exists 1%nat. cbn [repeat mem_run fold_left]. assert (E1 : mcstep (ms_memory s) m r (At q) = (ms_memory s, At (Done None UB))) by (rewrite mcstep_at by exact N; rewrite U, Ea; reflexivity).
        split; [exact (settled_step s i _ _ _ Hs Ei E1)|]. rewrite (mstep_nth s i _ _ _ Ei E1).
        assert (Ev : sv_cipher (view (ms_memory s)) = None) by (cbn [view sv_cipher]; rewrite Ea; reflexivity).
        assert (Es : cstep (view (ms_memory s)) m r q = (view (ms_memory s), Done None UB)) by (destruct q as [| | |[|x todo] done|pk [|x todo] done|size sum|rp so]; try discriminate U; cbn [call_step]; rewrite Ev; reflexivity).
        erewrite sys_step_at by (first [exact Pi|exact Es]). unfold plain_system. cbn [ms_memory ms_calls sy_calls]. rewrite map_set_nth. reflexivity.
    + exists 1%nat. cbn [repeat mem_run fold_left]. destruct (cstep (view (ms_memory s)) m r q) as [st q'] eqn:Es.
      assert (E1 : mcstep (ms_memory s) m r (At q) = ({| me_inputs := me_inputs (ms_memory s); me_ptr := me_ptr (ms_memory s); me_heap := me_heap (ms_memory s); me_finished := sv_finished st |}, At q')) by (rewrite mcstep_at by exact N; rewrite U, Es; reflexivity).
      split; [exact (settled_step s i _ _ _ Hs Ei E1)|]. rewrite (mstep_nth s i _ _ _ Ei E1). erewrite sys_step_at by (first [exact Pi|exact Es]). unfold plain_system. cbn [ms_memory ms_calls sy_calls]. rewrite map_set_nth.
      destruct (cstep_frame (view (ms_memory s)) m r q N) as (F1 & F2 & _). rewrite Es in F1, F2. cbn [fst] in F1, F2. destruct st as [i0 c0 f0]. cbn [sv_inputs sv_cipher sv_finished] in *. subst. reflexivity.
Qed.
Lemma fine_run schedule : forall s, settled s -> exists schedule', settled (mrun s schedule') /\ plain_system (mrun s schedule') = sys_run C X sqrt_p fuel flag srt (plain_system s) schedule.
Proof.
  induction schedule as [|i schedule IH]; intros s Hs; [exists []; split; [exact Hs|reflexivity]|]. destruct (fine_step s i Hs) as (n & S1 & E1). destruct (IH _ S1) as (sch & S2 & E2).
  exists (repeat i n ++ sch). unfold mem_run in *. rewrite fold_left_app. split; [exact S2|]. rewrite E2, E1. reflexivity.
Qed.

(** ** One start, or a key already in place *)

Definition steady (s : msystem) : Prop := sound (ms_memory s) /\ (me_ptr (ms_memory s) <> None \/ (start_requests (ms_calls s) <= 1)%nat) /\
  forall c, In c (ms_calls s) -> match mc_at c with Using a q => uses_key q = true /\ me_ptr (ms_memory s) = Some a | At KeyAbsent => me_ptr (ms_memory s) = None /\ is_start (mc_msg c) = true | UsedFreed => False | _ => True end.
Lemma two_starts (l : list mcall) : forall i j c d, i <> j -> nth_error l i = Some c -> nth_error l j = Some d -> is_start (mc_msg c) = true -> is_start (mc_msg d) = true -> (2 <= start_requests l)%nat.
Proof.
  unfold start_requests. assert (One : forall l j d, nth_error l j = Some d -> is_start (mc_msg d) = true -> (1 <= length (filter (fun c => is_start (mc_msg c)) l))%nat).
  { intros l0. induction l0 as [|x l0 IH]; intros [|j] d E Hd; try discriminate; cbn [filter nth_error] in *.
    - injection E as ->. rewrite Hd. cbn [length]. lia.
    - specialize (IH j d E Hd). destruct (is_start (mc_msg x)); cbn [length]; lia. }
  induction l as [|x l IH]; intros [|i] [|j] c d N Ei Ej Hc Hd; try discriminate; try congruence; cbn [filter nth_error] in *.
  - injection Ei as ->. rewrite Hc. cbn [length]. specialize (One l j d Ej Hd). lia.
  - injection Ej as ->. rewrite Hd. cbn [length]. specialize (One l i c Ei Hc). lia.
  - assert (N' : i <> j) by congruence. specialize (IH i j c d N' Ei Ej Hc Hd). destruct (is_start (mc_msg x)); cbn [length]; lia.
Qed.
Lemma requests_kept l i c p : nth_error l i = Some c -> start_requests (set_nth i {| mc_msg := mc_msg c; mc_rand := mc_rand c; mc_at := p |} l) = start_requests l.
Proof.
  unfold start_requests. revert i. induction l as [|x l IH]; intros [|i] E; try discriminate; cbn [set_nth filter nth_error] in *.
  - injection E as ->. cbn [mc_msg]. destruct (is_start (mc_msg c)); reflexivity.
  - specialize (IH i E). destruct (is_start (mc_msg x)); cbn [length]; congruence.
Qed.
(** What a call that did not use a freed key does next. *)
Lemma mcstep_new me m r p me' p' : sound me -> match p with Using a q => uses_key q = true /\ me_ptr me = Some a | UsedFreed => False | _ => True end -> mcstep me m r p = (me', p') ->
  match p' with Using a q => uses_key q = true /\ me_ptr me' = Some a | At KeyAbsent => me_ptr me' = None /\ is_start m = true | UsedFreed => False | _ => True end.
Proof.
  intros S K E. destruct p as [q|a q|]; [| |destruct K].
  - destruct (absent_dec q) as [->|N].
    + cbn [mem_call_step] in E. destruct (cipher_new C (sr_key r) 0); injection E as <- <-; exact I.
    + rewrite mcstep_at in E by exact N. destruct (uses_key q) eqn:U.
      * injection E as <- <-. destruct (me_ptr me) as [a|] eqn:Ea; [split; [exact U|reflexivity]|exact I].
      * destruct (cstep (view me) m r q) as [st q'] eqn:Es. injection E as <- <-. cbn [me_ptr]. destruct q' eqn:Eq'; try exact I.
        assert (B : q = Begun /\ is_start m = true /\ sv_cipher (view me) = None).
        { destruct q as [| | |[|x todo] done|pk [|x todo] done|size sum|rp so]; try discriminate U; cbn [call_step] in Es;
            repeat match type of Es with context [match ?x with _ => _ end] => destruct x eqn:?; try discriminate end; try (injection Es; discriminate); auto. }
        destruct B as (_ & B & V). split; [|exact B]. cbn [view sv_cipher] in V. destruct (me_ptr me) as [a|] eqn:Ea; [|reflexivity]. exfalso. exact (S a Ea V).
  - destruct K as [U K]. cbn [mem_call_step] in E. destruct (key_at (me_heap me) a) as [k|] eqn:Ek; [|exfalso; exact (S a K Ek)]. injection E as <- <-.
    destruct q as [| | |[|x todo] done|pk [|x todo] done|size sum|rp so]; try discriminate U; cbn [call_step snd sv_cipher].
    + destruct (enc C X sqrt_p fuel k x); exact I.
    + destruct (cipher_reencrypt C k (el x)); exact I.
Qed.

Lemma steady_step s i : steady s -> steady (mstep s i).
Proof.
  intros (S & O & H). destruct (nth_error (ms_calls s) i) as [c|] eqn:Ei; [|unfold mem_step; rewrite Ei; split; [exact S|split; assumption]].
  destruct (mcstep (ms_memory s) (mc_msg c) (mc_rand c) (mc_at c)) as [me p] eqn:E. rewrite (mstep_nth s i c _ _ Ei E). pose proof (H c (nth_error_In _ _ Ei)) as Hc.
  assert (Hn : match p with Using a q => uses_key q = true /\ me_ptr me = Some a | At KeyAbsent => me_ptr me = None /\ is_start (mc_msg c) = true | UsedFreed => False | _ => True end).
  { apply (mcstep_new _ _ _ _ _ _ S) in E; [exact E|]. destruct (mc_at c); try exact I; exact Hc. }
  split; [exact (sound_kept _ _ _ _ _ _ E S)|]. cbn [ms_memory ms_calls]. rewrite (requests_kept _ _ _ _ Ei).
  destruct (mcstep_cases _ _ _ _ _ _ E) as [(k & Ec & _ & -> & _)|(_ & Ep & _)].
  - rewrite Ec in Hc. destruct Hc as [Hp Hs]. split; [left; discriminate|]. intros d Hd. destruct (In_nth_error _ _ Hd) as (j & Hj). destruct (Nat.eq_dec i j) as [<-|N].
    + rewrite (nth_set_same _ _ _ _ Ei) in Hj. injection Hj as <-. exact Hn.
    + rewrite nth_set_other in Hj by exact N. pose proof (H d (nth_error_In _ _ Hj)) as Hd'. destruct (mc_at d) as [[| | |? ?|? ? ?|? ?|? ?]|a q|] eqn:Ed; try exact I; [|destruct Hd' as [_ Q]; congruence|exact Hd'].
      exfalso. destruct O as [O|O]; [congruence|]. destruct Hd' as [_ Hd']. pose proof (two_starts _ i j c d N Ei Hj Hs Hd'). lia.
  - rewrite Ep in *. split; [exact O|]. intros d Hd. apply in_set_nth in Hd. destruct Hd as [->|Hd]; [exact Hn|exact (H d Hd)].
Qed.
Lemma steady_run schedule : forall s, steady s -> steady (mrun s schedule).
Proof. induction schedule as [|i schedule IH]; intros s H; [exact H|]. apply (IH (mstep s i)), steady_step, H. Qed.
Lemma steady_start me calls : sound me -> none_begun calls -> me_ptr me <> None \/ (start_requests calls <= 1)%nat -> steady {| ms_memory := me; ms_calls := calls |}.
Proof. intros S N O. split; [exact S|]. split; [exact O|]. cbn [ms_calls]. intros c Hc. rewrite (N c Hc). exact I. Qed.
Lemma steady_nofree s : steady s -> no_use_after_free (ms_calls s).
Proof. intros (_ & _ & H) c Hc E. specialize (H c Hc). rewrite E in H. exact H. Qed.

(** ** The lock *)

Definition orderly (s : msystem) : Prop := sound (ms_memory s) /\ (forall i j c d, nth_error (ms_calls s) i = Some c -> nth_error (ms_calls s) j = Some d -> under_way c = true -> under_way d = true -> i = j) /\
  forall c, In c (ms_calls s) -> match mc_at c with Using a q => uses_key q = true /\ me_ptr (ms_memory s) = Some a | UsedFreed => False | _ => True end.
Lemma orderly_step s i : orderly s -> orderly (lstep s i).
Proof.
  intros (S & O & H). unfold mem_locked_step. destruct (nth_error (ms_calls s) i) as [c|] eqn:Ei; [|split; [exact S|split; assumption]].
  destruct (may_step s c) eqn:Em; [|split; [exact S|split; assumption]].
  destruct (mcstep (ms_memory s) (mc_msg c) (mc_rand c) (mc_at c)) as [me p] eqn:E. rewrite (mstep_nth s i c _ _ Ei E). pose proof (H c (nth_error_In _ _ Ei)) as Hc.
  assert (Hn : match p with Using a q => uses_key q = true /\ me_ptr me = Some a | UsedFreed => False | _ => True end).
  { apply (mcstep_new _ _ _ _ _ _ S Hc) in E. destruct p; try exact I; exact E. }
  assert (Oth : forall j d, j <> i -> nth_error (ms_calls s) j = Some d -> under_way d = false).
  { intros j d N Hj. destruct (under_way d) eqn:W; [|reflexivity]. exfalso. unfold may_step in Em. apply Bool.orb_true_iff in Em. destruct Em as [Em|Em]; [apply N; exact (O _ _ _ _ Hj Ei W Em)|].
    rewrite forallb_forall in Em. specialize (Em d (nth_error_In _ _ Hj)). rewrite W in Em. discriminate. }
  split; [exact (sound_kept _ _ _ _ _ _ E S)|]. cbn [ms_memory ms_calls]. split.
  - intros j l d e Hj Hl Wd We. destruct (Nat.eq_dec j i) as [->|Nj], (Nat.eq_dec l i) as [->|Nl]; try reflexivity.
    + rewrite nth_set_other in Hl by congruence. rewrite (Oth l e Nl Hl) in We. discriminate.
    + rewrite nth_set_other in Hj by congruence. rewrite (Oth j d Nj Hj) in Wd. discriminate.
    + rewrite nth_set_other in Hj by congruence. rewrite (Oth j d Nj Hj) in Wd. discriminate.
  - intros d Hd. destruct (In_nth_error _ _ Hd) as (j & Hj). destruct (Nat.eq_dec j i) as [->|N].
    + rewrite (nth_set_same _ _ _ _ Ei) in Hj. injection Hj as <-. exact Hn.
    + rewrite nth_set_other in Hj by congruence. pose proof (Oth j d N Hj) as W. pose proof (H d (nth_error_In _ _ Hj)) as Hd'. unfold under_way in W. destruct (mc_at d) as [q|a q|]; [exact I|discriminate|exact Hd'].
Qed.
Lemma orderly_run schedule : forall s, orderly s -> orderly (lrun s schedule).
Proof. induction schedule as [|i schedule IH]; intros s H; [exact H|]. apply (IH (lstep s i)), orderly_step, H. Qed.
Lemma orderly_start me calls : sound me -> none_begun calls -> orderly {| ms_memory := me; ms_calls := calls |}.
Proof.
  intros S N. split; [exact S|]. cbn [ms_calls]. split; [|intros c Hc; rewrite (N c Hc); exact I]. intros i j c d Hi _ W _. unfold under_way in W. rewrite (N c (nth_error_In _ _ Hi)) in W. discriminate.
Qed.
Lemma idle_touches s c : under_way c = false -> forall x w, In (x, w) (next_touches s c) -> w = false.
Proof.
  unfold under_way, next_touches, touches. destruct (mc_at c) as [[| | |? ?|? ? ?|? ?|? ?]|a q|]; try discriminate; intros _ x w H; cbn [In] in H; intuition congruence.
Qed.
Lemma orderly_norace s i j : orderly s -> ~ calls_race_locked s i j.
Proof.
  intros (_ & O & _) (N & c & d & Hi & Hj & Mc & Md & x & w1 & w2 & H1 & H2 & W). unfold may_step in Mc, Md. apply Bool.orb_true_iff in Mc, Md.
  assert (Q : under_way c = false /\ under_way d = false).
  { destruct (under_way c) eqn:Wc, (under_way d) eqn:Wd; auto; exfalso.
    - apply N. exact (O _ _ _ _ Hi Hj Wc Wd).
    - destruct Md as [Md|Md]; [discriminate|]. rewrite forallb_forall in Md. specialize (Md c (nth_error_In _ _ Hi)). rewrite Wc in Md. discriminate.
    - destruct Mc as [Mc|Mc]; [discriminate|]. rewrite forallb_forall in Mc. specialize (Mc d (nth_error_In _ _ Hj)). rewrite Wd in Mc. discriminate. }
  destruct Q as [Qc Qd]. rewrite (idle_touches s c Qc _ _ H1), (idle_touches s d Qd _ _ H2) in W. destruct W; discriminate.
Qed.

(** ** The main thread *)

Lemma first_result me m r p me' p' : match p with Using _ q => uses_key q = true | _ => True end -> me_finished me = false -> ~ gave_result p -> mcstep me m r p = (me', p') ->
  (exists size sum, p = At (Finishing size sum)) \/ (me_finished me' = false /\ ~ gave_result p').
Proof.
  intros U0 F G E. destruct p as [q|a q|].
  - destruct (absent_dec q) as [->|N].
    + cbn [mem_call_step] in E. right. destruct (cipher_new C (sr_key r) 0); injection E as <- <-; (split; [exact F|intros (? & ? & Q); discriminate Q]).
    + rewrite mcstep_at in E by exact N. destruct (uses_key q) eqn:U.
      * injection E as <- <-. right. split; [exact F|]. destruct (me_ptr me); intros (? & ? & Q); discriminate Q.
      * destruct (cstep (view me) m r q) as [st q'] eqn:Es. injection E as <- <-. cbn [me_finished].
        destruct (cstep_frame (view me) m r q N) as (_ & _ & [Fr|(size & sum & ->)]); [|left; eauto]. rewrite Es in Fr. cbn [fst view sv_finished] in Fr.
        destruct q as [| | |todo done|pk todo done|size sum|rp so]; [| | | | |left; eauto|]; right; (split; [congruence|]); intros (size & sum & Q); injection Q as ->; cbn [call_step] in Es.
        -- repeat match type of Es with context [match ?x with _ => _ end] => destruct x; try discriminate end.
        -- repeat match type of Es with context [match ?x with _ => _ end] => destruct x; try discriminate end.
        -- congruence.
        -- destruct todo; [|discriminate U]. discriminate.
        -- destruct todo; [|discriminate U]. repeat match type of Es with context [match ?x with _ => _ end] => destruct x; try discriminate end.
        -- injection Es as _ -> ->. apply G. exists size, sum. reflexivity.
  - cbn [mem_call_step] in E. right. destruct (key_at (me_heap me) a) as [k|]; injection E as <- <-; (split; [exact F|]); [|intros (? & ? & Q); discriminate Q]. intros (size & sum & Q). injection Q as Q. revert Q.
    destruct q as [| | |[|x todo] done|pk [|x todo] done|? ?|rp so]; try discriminate U0; cbn [call_step snd sv_cipher].
    + destruct (enc C X sqrt_p fuel k x); discriminate.
    + destruct (cipher_reencrypt C k (el x)); discriminate.
  - cbn [mem_call_step] in E. injection E as <- <-. right. auto.
Qed.

Lemma result_races schedule : forall s, consistent s -> me_finished (ms_memory s) = false -> (forall c, In c (ms_calls s) -> ~ gave_result (mc_at c)) ->
  (exists c, In c (ms_calls (mrun s schedule)) /\ gave_result (mc_at c)) -> exists before j after, schedule = before ++ j :: after /\ main_races (mrun s before) j.
Proof.
  induction schedule as [|i schedule IH]; intros s Hs F G (c & Hc & R); [exfalso; exact (G c Hc R)|]. cbn [mem_run fold_left] in Hc. fold (mrun (mstep s i) schedule) in Hc.
  destruct (nth_error (ms_calls s) i) as [d|] eqn:Ei.
  - destruct (mcstep (ms_memory s) (mc_msg d) (mc_rand d) (mc_at d)) as [me p] eqn:E.
    assert (U : match mc_at d with Using _ q => uses_key q = true | _ => True end) by (pose proof (proj2 Hs d (nth_error_In _ _ Ei)) as Q; destruct (mc_at d); try exact I; apply Q).
    destruct (first_result _ _ _ _ _ _ U F (G d (nth_error_In _ _ Ei)) E) as [(size & sum & Ed)|[F' G']].
    + exists [], i, schedule. split; [reflexivity|]. exists d. split; [exact Ei|]. exists Finished, false, true. cbn [mem_run fold_left]. unfold main_touches, next_touches. rewrite F, Ed. cbn [touches In]. auto.
    + destruct (IH (mstep s i)) as (before & j & after & -> & Rj); [apply consistent_step, Hs| | |eauto|].
      * rewrite (mstep_nth s i d _ _ Ei E). exact F'.
      * rewrite (mstep_nth s i d _ _ Ei E). cbn [ms_calls]. intros e He. apply in_set_nth in He. destruct He as [->|He]; [exact G'|exact (G e He)].
      * exists (i :: before), j, after. split; [reflexivity|exact Rj].
  - assert (Q : mstep s i = s) by (unfold mem_step; rewrite Ei; reflexivity). rewrite Q in Hc. destruct (IH s Hs F G) as (before & j & after & -> & Rj); [eauto|]. exists (i :: before), j, after. split; [reflexivity|]. cbn [mem_run fold_left]. rewrite Q. exact Rj.
Qed.
End Race.
