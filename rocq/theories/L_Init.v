(** Lemmas for C101. *)
From Verif Require Import Base M_Init S_Init.

Lemma set_thread_same f t r : set_thread f t r t = r.
Proof. unfold set_thread. rewrite Nat.eqb_refl. reflexivity. Qed.
Lemma set_thread_other f t r u : u <> t -> set_thread f t r u = f u.
Proof. unfold set_thread. intros H. apply Nat.eqb_neq in H. rewrite H. reflexivity. Qed.
Lemma set_owner_same f n o : set_owner f n o n = o.
Proof. unfold set_owner. rewrite Z.eqb_refl. reflexivity. Qed.
Lemma set_owner_other f n o m : m <> n -> set_owner f n o m = f m.
Proof. unfold set_owner. intros H. apply Z.eqb_neq in H. rewrite H. reflexivity. Qed.

Section Any.
Variable num_locks : Z.
Notation istep := (istep num_locks).
Notation irun := (irun num_locks).

Lemma irun_inv (I : shared -> Prop) : (forall s t s', I s -> istep s t = Some s' -> I s') -> forall sched s, I s -> I (irun s sched).
Proof.
  intros H. induction sched as [|t sched IH]; intros s Hs; [exact Hs|]. cbn [M_Init.irun fold_left]. apply IH. destruct (istep s t) as [s'|] eqn:E; [exact (H _ _ _ Hs E)|exact Hs].
Qed.
Lemma irun_app s a b : irun s (a ++ b) = irun (irun s a) b.
Proof. apply fold_left_app. Qed.

(** *** Any programs: the helper runs once. *)
Inductive plain : list instr -> Prop :=
| pl_nil : plain []
| pl_acq n r : plain r -> plain (IAcquire n :: r)
| pl_rel n r : plain r -> plain (IRelease n :: r)
| pl_new r : plain r -> plain (IOnce :: IMade :: r).
Lemma plain_app a b : plain a -> plain b -> plain (a ++ b).
Proof. intros Ha Hb. induction Ha; cbn [app]; [exact Hb|constructor; assumption..]. Qed.
Lemma plain_compile early p : plain (compile early p).
Proof.
  induction p as [|q p IH]; [constructor|]. cbn [compile flat_map]. apply plain_app; [|exact IH]. destruct q as [|n]; cbn [code].
  - apply plain_app; [|apply pl_new; constructor]. clear. induction early as [|n e IHe]; [constructor|]. cbn [flat_map section app]. apply pl_acq, pl_rel, IHe.
  - apply pl_acq, pl_rel, pl_nil.
Qed.

Inductive helping (t : nat) : nat -> bool -> bool -> list instr -> Prop :=
| he_0 r : plain r -> helping t 0 false false (ILoad :: IIds :: ILocks :: IFinish :: IMade :: r)
| he_1 r : plain r -> helping t 1 false false (IIds :: ILocks :: IFinish :: IMade :: r)
| he_2 r : plain r -> helping t 1 true false (ILocks :: IFinish :: IMade :: r)
| he_3 r : plain r -> helping t 1 true true (IFinish :: IMade :: r).

Definition once_ok (s : shared) : Prop :=
  match sh_flag s with
  | NotCalled => sh_loads s = 0%nat /\ sh_contexts s = 0%nat /\ forall t, plain (sh_threads s t)
  | CalledBy u => sh_contexts s = 0%nat /\ helping u (sh_loads s) (sh_ids s) (sh_locks s) (sh_threads s u) /\ forall t, t <> u -> plain (sh_threads s t)
  | Called => sh_loads s = 1%nat /\ sh_ids s = true /\ sh_locks s = true /\ forall t, plain (sh_threads s t) \/ exists r, sh_threads s t = IMade :: r /\ plain r
  end /\ (sh_flag s = NotCalled -> sh_ids s = false /\ sh_locks s = false).

Lemma once_init early ps : once_ok (shared_init early ps).
Proof. unfold once_ok, shared_init. cbn. repeat split. intros t. apply plain_compile. Qed.

Ltac upd t := let u := fresh "u" in intros u; unfold set_thread; destruct (Nat.eqb_spec u t) as [->|]; auto.
Lemma once_step s t s' : once_ok s -> istep s t = Some s' -> once_ok s'.
Proof.
  intros [H H0] E. unfold M_Init.istep in E. destruct (sh_fault s); try discriminate. unfold once_ok. destruct (sh_flag s) as [|v|] eqn:F.
  - destruct H as (A & B & P). destruct (H0 eq_refl) as [I0 L0]. pose proof (P t) as Pt. rewrite I0, L0 in *.
    destruct Pt as [|n r Pr|n r Pr|r Pr]; [discriminate|..]; injection E as <-; cbn.
    + rewrite ?F. repeat split; auto. upd t.
    + rewrite ?F. repeat split; auto. upd t.
    + rewrite A. split; [|discriminate]. split; [exact B|]. split; [rewrite set_thread_same; constructor; exact Pr|]. intros u Hu. rewrite set_thread_other by exact Hu. apply P.
  - destruct H as (B & He & P). destruct (Nat.eq_dec t v) as [->|Htv].
    + destruct (sh_threads s v) as [|i r] eqn:Et; [inversion He|].
      inversion He; subst; rewrite <- ?H1, <- ?H2, <- ?H3 in *; injection E as <-; cbn; rewrite ?F; (split; [|discriminate]).
      all: try match goal with Q : _ = sh_loads ?z |- _ => rewrite <- Q end.
      all: try (split; [exact B|]; split; [rewrite set_thread_same; constructor; assumption|]; intros u Hu; rewrite set_thread_other by exact Hu; apply P; exact Hu).
      split; [congruence|]. split; [congruence|]. split; [congruence|]. intros u. unfold set_thread. destruct (Nat.eqb_spec u v); [right; eauto|left; auto].
    + pose proof (P t Htv) as Pt. assert (K : forall r, plain r -> once_ok {| sh_flag := CalledBy v; sh_loads := sh_loads s; sh_ids := sh_ids s; sh_locks := sh_locks s; sh_owner := sh_owner s;
        sh_contexts := sh_contexts s; sh_fault := Ok tt; sh_threads := set_thread (sh_threads s) t r |}).
      { intros r Pr. split; [|discriminate]. cbn. split; [exact B|]. split; [rewrite set_thread_other by congruence; exact He|]. intros u Hu. unfold set_thread. destruct (Nat.eqb u t); auto. }
      destruct (sh_threads s t) as [|i r] eqn:Et; [discriminate|]. inversion Pt as [|n r' Pr|n r' Pr|r' Pr]; subst; [..|discriminate].
      all: destruct (sh_locks s) eqn:EL; [|injection E as <-; cbn; rewrite ?F, ?EL in *; exact (K r Pr)].
      all: destruct (lock_callback num_locks (sh_owner s n) _ n t) as [|o|o]; [discriminate|..]; injection E as <-; cbn; rewrite ?F.
      all: split; [|discriminate]; split; [exact B|]; split; auto.
      all: try (rewrite set_thread_other by congruence; exact He).
      all: intros u Hu; unfold set_thread; destruct (Nat.eqb u t); auto.
  - destruct H as (A & I1 & L1 & P). pose proof (P t) as Pt. destruct Pt as [Pt|(r & Et & Pr)].
    + destruct (sh_threads s t) as [|i r] eqn:Et; [discriminate|]. rewrite L1 in E. inversion Pt as [|n r' Pr|n r' Pr|r' Pr]; subst.
      1,2: destruct (lock_callback num_locks (sh_owner s n) _ n t) as [|o|o]; [discriminate|..]; injection E as <-; cbn; rewrite ?F.
      1-4: split; [|intros; discriminate]; repeat split; auto; intros u; unfold set_thread; destruct (Nat.eqb u t); auto.
      injection E as <-. cbn. rewrite ?F. split; [|intros; discriminate]. repeat split; auto. intros u. unfold set_thread. destruct (Nat.eqb u t); eauto.
    + rewrite Et in E. injection E as <-. cbn. rewrite ?F. split; [|intros; discriminate]. repeat split; auto. intros u. unfold set_thread. destruct (Nat.eqb u t); auto.
Qed.
Lemma once_run early ps sched : once_ok (irun (shared_init early ps) sched).
Proof. apply irun_inv; [exact once_step|apply once_init]. Qed.
End Any.

(** *** Programs that construct a Context first. *)
Section Tame.
Variable num_locks : Z.
Notation istep := (istep num_locks).
Notation irun := (irun num_locks).
Definition good (p : list request) : Prop := Forall (fun r => match r with NewContext => True | UseLock n => 0 <= n < num_locks end) p.
Lemma first_good p : context_first num_locks p -> good p.
Proof. destruct p as [|[|n] p]; cbn; [constructor|intros H; constructor; [exact I|exact H]|intros []]. Qed.

Inductive tphase (f : once) (locks : bool) (owner : Z -> option nat) (t : nat) : list instr -> Prop :=
| tp_any p : good p -> locks = true \/ context_first num_locks p -> tphase f locks owner t (compile [] p)
| tp_in n p : good p -> locks = true -> owner n = Some t -> 0 <= n < num_locks -> tphase f locks owner t (IRelease n :: compile [] p)
| tp_made p : good p -> f = Called -> tphase f locks owner t (IMade :: compile [] p)
| tp_0 p : good p -> f = CalledBy t -> tphase f locks owner t (ILoad :: IIds :: ILocks :: IFinish :: IMade :: compile [] p)
| tp_1 p : good p -> f = CalledBy t -> tphase f locks owner t (IIds :: ILocks :: IFinish :: IMade :: compile [] p)
| tp_2 p : good p -> f = CalledBy t -> tphase f locks owner t (ILocks :: IFinish :: IMade :: compile [] p)
| tp_3 p : good p -> f = CalledBy t -> tphase f locks owner t (IFinish :: IMade :: compile [] p).
Lemma tphase_mono f locks owner f' locks' owner' t r : tphase f locks owner t r ->
  (locks = true -> locks' = true) -> (forall n, owner n = Some t -> owner' n = Some t) -> (f = Called -> f' = Called) -> (f = CalledBy t -> f' = CalledBy t) ->
  tphase f' locks' owner' t r.
Proof. intros T A B D E. destruct T as [p G [L|L]|n p G L Hn Bn|p G F|p G F|p G F|p G F|p G F]; constructor; auto. Qed.

Definition helper (i : instr) : bool := match i with ILoad | IIds | ILocks | IFinish => true | _ => false end.
Definition tame (s : shared) : Prop :=
  sh_fault s = Ok tt /\ (forall t, tphase (sh_flag s) (sh_locks s) (sh_owner s) t (sh_threads s t)) /\ (forall n t, sh_owner s n = Some t -> inside s t n) /\
  (forall u, sh_flag s = CalledBy u -> exists i r, sh_threads s u = i :: r /\ helper i = true) /\ once_ok s.

Lemma called_locks s : once_ok s -> sh_flag s = Called -> sh_locks s = true.
Proof. intros [H _] F. rewrite F in H. tauto. Qed.

Lemma tame_init ps : Forall (context_first num_locks) ps -> tame (shared_init [] ps).
Proof.
  intros H. unfold tame. cbn. split; [reflexivity|]. split.
  - intros t. assert (K : context_first num_locks (nth t ps [])).
    { destruct (Nat.lt_ge_cases t (length ps)) as [L|L]; [|rewrite nth_overflow by exact L; exact I]. rewrite Forall_forall in H. apply H, nth_In, L. }
    constructor; [apply first_good; exact K|right; exact K].
  - split; [discriminate|]. split; [discriminate|]. apply once_init.
Qed.

Lemma tame_step s t s' : tame s -> istep s t = Some s' -> tame s'.
Proof.
  intros (F0 & T & O & U & On) E. pose proof (once_step num_locks s t s' On E) as On'. pose proof (T t) as Tt. unfold M_Init.istep in E. rewrite F0 in E.
  assert (Keep : forall f' l' o' r, (sh_locks s = true -> l' = true) -> (forall u, u <> t -> forall n, sh_owner s n = Some u -> o' n = Some u) -> (sh_flag s = Called -> f' = Called) -> (forall u, u <> t -> sh_flag s = CalledBy u -> f' = CalledBy u) ->
    tphase f' l' o' t r -> forall u, tphase f' l' o' u (set_thread (sh_threads s) t r u)).
  { intros f' l' o' r A B C D Tr u. destruct (Nat.eq_dec u t) as [->|Hu]; [rewrite set_thread_same; exact Tr|]. rewrite set_thread_other by exact Hu. eapply tphase_mono; [apply T|auto..]. }
  assert (Own : forall o' r, (forall n u, o' n = Some u -> sh_owner s n = Some u /\ u <> t \/ u = t /\ exists r', r = IRelease n :: r') -> forall s1, sh_threads s1 = set_thread (sh_threads s) t r -> forall n u, o' n = Some u -> inside s1 u n).
  { intros o' r A s1 E1 n u Hn. unfold inside. rewrite E1. destruct (A n u Hn) as [[B C]|[-> (r' & ->)]]; [rewrite set_thread_other by exact C; exact (O n u B)|rewrite set_thread_same; eauto]. }
  assert (NoOwn : (forall n r', sh_threads s t <> IRelease n :: r') -> forall n u, sh_owner s n = Some u -> sh_owner s n = Some u /\ u <> t \/ u = t /\ False).
  { intros N n u Hn. left. split; [exact Hn|]. intros ->. destruct (O n t Hn) as (r' & Er). exact (N n r' Er). }
  assert (Hel : forall u r, u <> t -> sh_flag s = CalledBy u -> exists i r', set_thread (sh_threads s) t r u = i :: r' /\ helper i = true).
  { intros u r Hu Fu. rewrite set_thread_other by exact Hu. exact (U u Fu). }
  assert (Others : forall r, (forall i r', sh_threads s t = i :: r' -> helper i = false) -> forall u, sh_flag s = CalledBy u -> exists i r', set_thread (sh_threads s) t r u = i :: r' /\ helper i = true).
  { intros r N u Fu. apply Hel; [|exact Fu]. intros ->. destruct (U t Fu) as (i & r' & Ei & Hi). rewrite (N i r' Ei) in Hi. discriminate. }
  remember (sh_threads s t) as rt eqn:Et. destruct Tt as [p G L|n p G L Hn Bn|p G F|p G F|p G F|p G F|p G F].
  - destruct p as [|[|n] p]; [discriminate| |].
    + inversion G as [|? ? _ Gp]; subst. cbn [compile flat_map code app] in *. destruct (sh_flag s) as [|v|] eqn:F; [|discriminate|]; injection E as <-; unfold tame; cbn.
      * split; [reflexivity|]. split; [apply Keep; try discriminate; auto; apply tp_0; [exact Gp|reflexivity]|]. split.
        { apply (Own (sh_owner s) (ILoad :: IIds :: ILocks :: IFinish :: IMade :: compile [] p)); [|reflexivity]. intros n u Hn. destruct (NoOwn ltac:(intros; congruence) n u Hn) as [H|[_ []]]. left. exact H. }
        split; [|exact On']. intros u Fu. injection Fu as <-. rewrite set_thread_same. eauto.
      * split; [reflexivity|]. rewrite ?F. split; [apply Keep; try discriminate; auto; apply tp_made; [exact Gp|reflexivity]|]. split.
        { apply (Own (sh_owner s) (IMade :: compile [] p)); [|reflexivity]. intros n u Hn. destruct (NoOwn ltac:(intros; congruence) n u Hn) as [H|[_ []]]. left. exact H. }
        split; [discriminate|exact On'].
    + inversion G as [|? ? Bn Gp]; subst. destruct L as [L|[]]. cbn [compile flat_map code section app] in *. rewrite L in E. unfold lock_callback in E.
      destruct (Z.ltb_spec n 0); [lia|]. destruct (Z.leb_spec num_locks n); [lia|]. destruct (sh_owner s n) as [w|] eqn:Eo; [discriminate|]. injection E as <-. unfold tame. cbn.
      split; [reflexivity|]. split.
      { apply Keep; auto; [|apply tp_in; auto; apply set_owner_same]. intros u Hu m Hm. rewrite set_owner_other; [exact Hm|congruence]. }
      split; [|split; [|exact On']].
      * apply (Own (set_owner (sh_owner s) n (Some t)) (IRelease n :: compile [] p)); [|reflexivity]. intros m u Hm. unfold set_owner in Hm. destruct (Z.eqb_spec m n) as [->|]; [injection Hm as <-; right; eauto|].
        destruct (NoOwn ltac:(intros; congruence) m u Hm) as [H9|[_ []]]. left. exact H9.
      * apply Others. intros i r' Ei. injection Ei as <- _. reflexivity.
  - rewrite L, Hn in E. unfold lock_callback in E. destruct (Z.ltb_spec n 0); [lia|]. destruct (Z.leb_spec num_locks n); [lia|]. rewrite Nat.eqb_refl in E. injection E as <-. unfold tame. cbn.
    split; [reflexivity|]. split.
    { apply Keep; auto; [|apply tp_any; auto]. intros u Hu m Hm. rewrite set_owner_other; [exact Hm|congruence]. }
    split; [|split; [|exact On']].
    + apply (Own (set_owner (sh_owner s) n None) (compile [] p)); [|reflexivity]. intros m u Hm. unfold set_owner in Hm. destruct (Z.eqb_spec m n) as [->|Hmn]; [discriminate|]. left. split; [exact Hm|]. intros ->. destruct (O m t Hm) as (r' & Er). congruence.
    + apply Others. intros i r' Ei. injection Ei as <- _. reflexivity.
  - injection E as <-. unfold tame. cbn. split; [reflexivity|]. split; [apply Keep; auto; apply tp_any; [exact G|left; exact (called_locks s On F)]|]. split; [|split; [|exact On']].
    + apply (Own (sh_owner s) (compile [] p)); [|reflexivity]. intros n u Hn. destruct (NoOwn ltac:(intros; congruence) n u Hn) as [H|[_ []]]. left. exact H.
    + rewrite F. discriminate.
  - injection E as <-. unfold tame. cbn. split; [reflexivity|]. split; [apply Keep; auto; apply tp_1; assumption|]. split; [|split; [|exact On']].
    + apply (Own (sh_owner s) (IIds :: ILocks :: IFinish :: IMade :: compile [] p)); [|reflexivity]. intros n u Hn. destruct (NoOwn ltac:(intros; congruence) n u Hn) as [H|[_ []]]. left. exact H.
    + intros u Fu. rewrite F in Fu. injection Fu as <-. rewrite set_thread_same. eauto.
  - injection E as <-. unfold tame. cbn. split; [reflexivity|]. split; [apply Keep; auto; apply tp_2; assumption|]. split; [|split; [|exact On']].
    + apply (Own (sh_owner s) (ILocks :: IFinish :: IMade :: compile [] p)); [|reflexivity]. intros n u Hn. destruct (NoOwn ltac:(intros; congruence) n u Hn) as [H|[_ []]]. left. exact H.
    + intros u Fu. rewrite F in Fu. injection Fu as <-. rewrite set_thread_same. eauto.
  - injection E as <-. unfold tame. cbn. split; [reflexivity|]. split; [apply Keep; auto; apply tp_3; assumption|]. split; [|split; [|exact On']].
    + apply (Own (sh_owner s) (IFinish :: IMade :: compile [] p)); [|reflexivity]. intros n u Hn. destruct (NoOwn ltac:(intros; congruence) n u Hn) as [H|[_ []]]. left. exact H.
    + intros u Fu. rewrite F in Fu. injection Fu as <-. rewrite set_thread_same. eauto.
  - injection E as <-. unfold tame. cbn. split; [reflexivity|]. split; [apply Keep; auto; [intros u Hu Fu; congruence|apply tp_made; [exact G|reflexivity]]|]. split; [|split; [discriminate|exact On']].
    apply (Own (sh_owner s) (IMade :: compile [] p)); [|reflexivity]. intros n u Hn. destruct (NoOwn ltac:(intros; congruence) n u Hn) as [H|[_ []]]. left. exact H.
Qed.
Lemma tame_run ps sched : Forall (context_first num_locks) ps -> tame (irun (shared_init [] ps) sched).
Proof. intros H. apply irun_inv; [exact tame_step|apply tame_init, H]. Qed.

(** A thread that has something left can run, or the one it waits for can. *)
Lemma tame_moves s t : tame s -> sh_threads s t <> [] -> exists u s', istep s u = Some s'.
Proof.
  intros (F0 & T & O & U & On) N.
  assert (Rel : forall u n, inside s u n -> exists s', istep s u = Some s').
  { intros u n (r & Er). pose proof (T u) as Tu. rewrite Er in Tu. inversion Tu as [p G L E0|n' p G L Hn Bn|p G F|p G F|p G F|p G F|p G F]; subst.
    - destruct p as [|[|m] p]; discriminate E0.
    - unfold M_Init.istep. rewrite F0, Er, L, Hn. unfold lock_callback. destruct (Z.ltb_spec n 0); [lia|]. destruct (Z.leb_spec num_locks n); [lia|]. rewrite Nat.eqb_refl. eauto. }
  destruct (sh_flag s) as [|v|] eqn:F.
  2: { destruct (U v eq_refl) as (i & r & Ei & Hi). exists v. unfold M_Init.istep. rewrite F0, Ei. destruct i; try discriminate Hi; eauto. }
  all: destruct (sh_threads s t) as [|i r] eqn:Et; [congruence|]; pose proof (T t) as Tt; rewrite Et in Tt.
  all: destruct i as [n|n| | | | | |]; try (exists t; unfold M_Init.istep; rewrite F0, Et, ?F; eauto; fail).
  all: try (destruct (Rel t n) as (s' & E); [exists r; exact Et|eauto]; fail).
  all: inversion Tt as [p G L E0|n' p G L Hn Bn E0|p G F1 E0|p G F1 E0|p G F1 E0|p G F1 E0|p G F1 E0].
  all: destruct p as [|[|m] p]; [discriminate E0..|]; injection E0 as -> _; destruct L as [L|[]]; inversion G as [|? ? Bn _]; subst.
  all: destruct (sh_owner s n) as [w|] eqn:Ew; [destruct (Rel w n (O n w Ew)) as (s' & E); eauto|].
  all: exists t; unfold M_Init.istep; rewrite F0, Et, L, Ew; unfold lock_callback; destruct (Z.ltb_spec n 0); [lia|]; destruct (Z.leb_spec num_locks n); [lia|]; eauto.
Qed.

(** *** Every step brings the end nearer. *)
Definition weight (i : instr) : nat := match i with IOnce => 6 | _ => 1 end%nat.
Definition total (g : list instr -> nat) (k : nat) (f : nat -> list instr) : nat := list_sum (map (fun t => g (f t)) (seq 0 k)).
Definition cost (r : list instr) : nat := list_sum (map weight r).
Definition pending (r : list instr) : nat := length (filter (fun i => match i with IMade => true | _ => false end) r).
Lemma total_S g k f : total g (S k) f = (total g k f + g (f k))%nat.
Proof. unfold total. rewrite seq_S, map_app, list_sum_app. cbn. lia. Qed.
Lemma total_set g k f t r : (t < k)%nat -> (total g k (set_thread f t r) + g (f t) = total g k f + g r)%nat.
Proof.
  induction k as [|k IH]; intros H; [lia|]. rewrite !total_S. destruct (Nat.eq_dec t k) as [->|Hk].
  - rewrite set_thread_same. assert (E : total g k (set_thread f k r) = total g k f); [|lia]. unfold total. f_equal. apply map_ext_in. intros u Hu. apply in_seq in Hu. rewrite set_thread_other by lia. reflexivity.
  - rewrite set_thread_other by lia. specialize (IH ltac:(lia)). lia.
Qed.
Lemma total_out g k f t r : (k <= t)%nat -> total g k (set_thread f t r) = total g k f.
Proof. intros H. unfold total. f_equal. apply map_ext_in. intros u Hu. apply in_seq in Hu. rewrite set_thread_other by lia. reflexivity. Qed.

Lemma cost_cons i r : cost (i :: r) = (weight i + cost r)%nat. Proof. reflexivity. Qed.
Lemma pending_cons i r : pending (i :: r) = ((match i with IMade => 1 | _ => 0 end) + pending r)%nat. Proof. destruct i; reflexivity. Qed.
Lemma faults_not_ok nl w b n t o : lock_callback nl w b n t = Faults o -> o <> Ok tt.
Proof. unfold lock_callback. intros H ->. destruct (n <? 0); [discriminate|]. destruct (nl <=? n); [discriminate|]. destruct b, w as [u|]; try discriminate. destruct (Nat.eqb u t); discriminate. Qed.
Lemma step_total s t s' k : istep s t = Some s' -> sh_fault s' = Ok tt -> (forall u, (k <= u)%nat -> sh_threads s u = []) ->
  (total cost k (sh_threads s') < total cost k (sh_threads s))%nat /\ (sh_contexts s' + total pending k (sh_threads s') = sh_contexts s + total pending k (sh_threads s))%nat /\
  (forall u, (k <= u)%nat -> sh_threads s' u = []).
Proof.
  intros E F Z0.
  assert (K : exists r, sh_threads s' = set_thread (sh_threads s) t r /\ (t < k)%nat /\ (cost r < cost (sh_threads s t))%nat /\ (sh_contexts s' + pending r = sh_contexts s + pending (sh_threads s t))%nat).
  { unfold M_Init.istep in E. destruct (sh_fault s); try discriminate. destruct (sh_threads s t) as [|i r] eqn:Et; [discriminate|].
    assert (Ht : (t < k)%nat) by (destruct (Nat.lt_ge_cases t k) as [L|L]; [exact L|rewrite (Z0 t L) in Et; discriminate]).
    destruct i as [n|n| | | | | |].
    1,2: destruct (sh_locks s); [match type of E with context [lock_callback ?a ?b ?c ?d ?e] => destruct (lock_callback a b c d e) as [|o|o] eqn:Q end; [discriminate|injection E as <-; cbn in F|]|].
    1,4: match goal with Q : lock_callback _ _ _ _ _ = Faults _ |- _ => destruct (faults_not_ok _ _ _ _ _ _ Q F) end.
    all: try (injection E as <-; exists r; cbn [sh_threads sh_contexts]; split; [reflexivity|]; split; [exact Ht|]; rewrite ?cost_cons, ?pending_cons; cbn [weight]; lia).
    destruct (sh_flag s); [|discriminate|]; injection E as <-; eexists; cbn [sh_threads sh_contexts]; (split; [reflexivity|]); (split; [exact Ht|]); rewrite ?cost_cons, ?pending_cons; cbn [weight]; lia. }
  destruct K as (r & E1 & Ht & C1 & C2). rewrite E1. pose proof (total_set cost k (sh_threads s) t r Ht). pose proof (total_set pending k (sh_threads s) t r Ht). split; [lia|]. split; [lia|].
  intros u Hu. rewrite set_thread_other by lia. apply Z0, Hu.
Qed.

Lemma tame_ends k : forall s, tame s -> (forall u, (k <= u)%nat -> sh_threads s u = []) ->
  exists sched, forall t, sh_threads (irun s sched) t = [] /\ sh_contexts (irun s sched) = (sh_contexts s + total pending k (sh_threads s))%nat.
Proof.
  intros s. remember (total cost k (sh_threads s)) as c eqn:Ec. revert s Ec. induction c as [c IH] using lt_wf_ind. intros s Ec T Z0.
  assert (D : (forall t, sh_threads s t = []) \/ exists t, sh_threads s t <> []).
  { clear - Z0. assert (K : forall j, (forall t, (t < j)%nat -> sh_threads s t = []) \/ exists t, sh_threads s t <> []).
    { induction j as [|j [IH|IH]]; [left; lia| |right; exact IH]. destruct (sh_threads s j) as [|i r] eqn:E; [|right; exists j; congruence].
      left. intros t Ht. destruct (Nat.eq_dec t j) as [->|]; [exact E|apply IH; lia]. }
    destruct (K k) as [A|A]; [|right; exact A]. left. intros t. destruct (Nat.lt_ge_cases t k); auto. }
  destruct D as [D|(t & D)].
  - exists []. intros t. cbn. split; [apply D|]. assert (P0 : total pending k (sh_threads s) = 0%nat); [|lia]. unfold total. rewrite (map_ext_in _ (fun _ => 0%nat)) by (intros; rewrite D; reflexivity).
    clear. generalize (seq 0 k). induction l as [|a l IH]; [reflexivity|exact IH].
  - destruct (tame_moves s t T D) as (u & s' & E). pose proof (tame_step s u s' T E) as T'. destruct (step_total s u s' k E (proj1 T') Z0) as (A & B & Z1).
    destruct (IH _ ltac:(rewrite Ec; exact A) s' eq_refl T' Z1) as (sched & H). exists (u :: sched). intros v. cbn [M_Init.irun fold_left]. rewrite E. destruct (H v) as [H1 H2]. split; [exact H1|]. unfold irun in H2. rewrite H2. exact B.
Qed.
Lemma pending_compile p : pending (compile [] p) = contexts_in p.
Proof.
  unfold pending, contexts_in. induction p as [|[|n] p IH]; [reflexivity|..]; cbn [compile flat_map code section app filter length]; rewrite <- IH; reflexivity.
Qed.
Lemma total_init ps : total pending (length ps) (sh_threads (shared_init [] ps)) = list_sum (map contexts_in ps).
Proof.
  unfold total, shared_init. cbn. f_equal. rewrite (map_ext _ (fun t => contexts_in (nth t ps []))) by (intros; apply pending_compile).
  rewrite <- (map_map (fun t => nth t ps []) contexts_in). f_equal. clear. induction ps as [|p ps IH]; [reflexivity|]. cbn [length seq map nth]. f_equal. rewrite <- seq_shift, map_map. exact IH.
Qed.
End Tame.
