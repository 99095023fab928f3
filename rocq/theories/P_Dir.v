(** C94: renaming, deleting and finding files, making and deleting directories. *)
From Verif Require Import Base M_Dir S_Dir L_Dir.

(** A string spells exactly one list of components. *)
Theorem C94_names : forall s, names s (components s) /\ forall p, names s p -> p = components s.
Proof. intros s. split; [apply components_names|]. intros p H. symmetry. apply names_components. exact H. Qed.
Print Assumptions C94_names.

(** FileExists is OK when the name leads to a file or a directory, and NotFound otherwise. *)
Theorem C94_exists : forall t v s, v_string v = s -> plain s ->
  (file_exists t v false = Ok tt <-> exists k, named t s k) /\
  (file_exists t v false = Err NotFound <-> forall k, ~ named t s k).
Proof.
  intros t v s E P. unfold file_exists. rewrite E, (os_name_plain s P). rewrite <- stat_none. destruct (stat t s) as [k|] eqn:S.
  - split; split; try discriminate; [|reflexivity]. intros _. exists k. apply stat_named. exact S.
  - split; split; try discriminate; try reflexivity. intros [k K]. apply stat_named in K. congruence.
Qed.
Print Assumptions C94_exists.

(** RecursivelyCreateDir makes what is missing on the way to the directory and changes nothing else; it makes nothing when the directory is
    there or a file is in the way. *)
Theorem C94_create : forall t v s p fault, wf t -> v_string v = s -> plain s -> s <> [] -> names s p -> (length p <= 1000)%nat -> (forall i, fault i = false) ->
  (lookup t p = Some KDir -> create_dir t v false fault = (t, Err AlreadyExists)) /\
  (file_in_the_way t p -> exists t', create_dir t v false fault = (t', Err Internal) /\ forall q, lookup t' q = lookup t q) /\
  (lookup t p <> Some KDir -> ~ file_in_the_way t p ->
   exists t', create_dir t v false fault = (t', Ok tt) /\ wf t' /\ (forall q, under q p -> lookup t' q = Some KDir) /\ (forall q, ~ under q p -> lookup t' q = lookup t q)).
Proof.
  intros t v s p fault W Hv P N Hp L F. destruct (create_dir t v false fault) as [t' r] eqn:E.
  pose proof (create_outcome t v false fault t' r s p W Hv P N Hp E) as O. pose proof (create_general t v false fault t' r W E) as [W' G].
  rewrite Hv, (os_name_plain s P), (names_components s p Hp) in G. destruct G as [G1 G2].
  assert (X : forall u, wf u -> lookup u p = Some KDir -> ~ file_in_the_way u p).
  { intros u Wu K (q & c & U & Kq). apply under_below in U. destruct U as [->|U]; [congruence|]. rewrite (wf_above u q p Wu U) in Kq; congruence. }
  split; [|split].
  - intros K. destruct O as [(-> & A & _)|[(-> & -> & _)|(-> & _ & A)]]; [congruence|reflexivity|]. destruct (A (conj eq_refl (conj F L))). congruence.
  - intros (f & c & U & Kf). assert (Y : file_in_the_way t p /\ file_in_the_way t' p) by (split; exists f, c; auto). destruct Y as [Y Y'].
    destruct O as [(_ & _ & A)|[(_ & _ & A)|(-> & _)]]; [destruct (X _ W' A Y')|destruct (X _ W A Y)|]. exists t'. split; [reflexivity|]. intros q.
    destruct (lookup t q) as [k|] eqn:K; [exact (G1 _ _ K)|]. destruct (G2 q K) as [A|[A B]]; [exact A|]. exfalso.
    destruct (under_app q f p B U) as [V|V]; apply under_below in V; destruct V as [V|V].
    + congruence.
    + rewrite (wf_above t q f W V) in K; congruence.
    + congruence.
    + pose proof (wf_above t' f q W' V ltac:(congruence)) as D. rewrite (G1 _ _ Kf) in D. discriminate.
  - intros K NF. destruct O as [(-> & _ & A)|[(_ & _ & A)|(-> & _ & A)]]; [|congruence|destruct (A (conj eq_refl (conj F L))); contradiction].
    exists t'. split; [reflexivity|]. split; [exact W'|]. split; intros q U.
    + apply under_below in U. destruct U as [<-|U]; [exact A|]. apply (wf_above t' q p W' U). congruence.
    + destruct (lookup t q) as [k|] eqn:Kq; [exact (G1 _ _ Kq)|]. destruct (G2 q Kq) as [B|[_ B]]; [exact B|contradiction].
Qed.
Print Assumptions C94_create.

(** Whatever fails on the way: nothing that was there is lost or changed, only directories on the way to the directory are added, OK means
    that it is there now and was not before, and AlreadyExists that it was. *)
Theorem C94_create_faults : forall t v s p stat_fault fault t' r, wf t -> v_string v = s -> plain s -> s <> [] -> names s p ->
  create_dir t v stat_fault fault = (t', r) ->
  wf t' /\ grown t t' p /\
  ((r = Ok tt /\ lookup t p = None /\ lookup t' p = Some KDir) \/
   (r = Err AlreadyExists /\ t' = t /\ lookup t p = Some KDir) \/
   (r = Err Internal /\ lookup t' p = lookup t p)).
Proof.
  intros t v s p sf fault t' r W Hv P N Hp E. pose proof (create_general t v sf fault t' r W E) as [W' G].
  rewrite Hv, (os_name_plain s P), (names_components s p Hp) in G. split; [exact W'|]. split; [exact G|].
  destruct (create_outcome t v sf fault t' r s p W Hv P N Hp E) as [A|[A|(A & B & _)]]; auto.
Qed.
Print Assumptions C94_create_faults.

(** A call that failed half-way can be repeated: in the end the tree is the one that a call without faults makes. *)
Theorem C94_create_again : forall t v s p stat_fault fault t1 no_fault t' r t0, wf t -> v_string v = s -> plain s -> s <> [] -> names s p -> (length p <= 1000)%nat ->
  (forall i, no_fault i = false) ->
  create_dir t v stat_fault fault = (t1, Err Internal) -> create_dir t1 v false no_fault = (t', r) -> create_dir t v false no_fault = (t0, Ok tt) ->
  r = Ok tt /\ forall q, lookup t' q = lookup t0 q.
Proof.
  intros t v s p sf fault t1 nf t' r t0 W Hv P N Hp L F E1 E2 E0.
  destruct (C94_create_faults t v s p sf fault t1 _ W Hv P N Hp E1) as (W1 & [G1 G2] & O1).
  destruct O1 as [(O1 & _)|[(O1 & _)|(_ & O1)]]; [discriminate|discriminate|].
  destruct (C94_create t v s p nf W Hv P N Hp L F) as (A1 & A2 & A3). destruct (C94_create t1 v s p nf W1 Hv P N Hp L F) as (B1 & B2 & B3).
  assert (K : lookup t p <> Some KDir) by (intros K; rewrite (A1 K) in E0; discriminate).
  assert (NF : ~ file_in_the_way t p) by (intros K'; destruct (A2 K') as (u & U & _); rewrite U in E0; discriminate).
  assert (NF1 : ~ file_in_the_way t1 p).
  { intros (f & c & U & Kf). destruct (lookup t f) as [k|] eqn:Q.
    - apply NF. exists f, c. split; [exact U|]. rewrite (G1 _ _ Q) in Kf. congruence.
    - destruct (G2 f Q) as [A|[A _]]; congruence. }
  destruct (A3 K NF) as (u0 & U0 & _ & X1 & X2). rewrite U0 in E0. injection E0 as ->. destruct (B3 ltac:(congruence) NF1) as (u & U & _ & Y1 & Y2).
  rewrite U in E2. injection E2 as -> <-. split; [reflexivity|]. intros q. destruct (under_dec q p) as [V|V]; [rewrite X1, Y1 by exact V; reflexivity|].
  rewrite X2, Y2 by exact V. destruct (lookup t q) as [k|] eqn:Q; [exact (G1 _ _ Q)|]. destruct (G2 q Q) as [A|[_ A]]; [exact A|contradiction].
Qed.
Print Assumptions C94_create_again.

(** RecursivelyDeleteDir removes the entry with everything in it, and nothing else, in whatever order it meets the entries; what is not there
    is no error. *)
Theorem C94_delete_dir : forall t v s p order, wf t -> v_string v = s -> plain s -> names s p ->
  ((forall k, ~ named t s k) -> delete_dir t v order None = (t, Ok tt)) /\
  (forall k, named t s k -> traversal t p order ->
   exists t', delete_dir t v order None = (t', if path_eqb p [] then Err Internal else Ok tt) /\ wf t' /\ same_outside t t' p /\
              forall q, under p q -> q <> [] -> lookup t' q = None).
Proof.
  intros t v s p order W Hv P Hp. unfold delete_dir. rewrite Hv, (os_name_plain s P). split.
  - intros H. apply stat_none in H. rewrite H. reflexivity.
  - intros k K [T1 T2]. pose proof (proj2 (stat_named _ _ _) K) as S. rewrite S.
    assert (Kp : lookup t p = Some k) by (destruct K as (_ & p' & Hp' & K & _); apply names_components in Hp, Hp'; congruence).
    destruct (path_eqb p []) eqn:E.
    + apply path_eqb_eq in E. subst p. assert (I : In [] order) by (apply T1; split; [apply under_refl|discriminate]). apply in_split in I.
      destruct I as (a & b & ->). assert (b = []) as ->.
      { destruct b as [|x b]; [reflexivity|]. exfalso. apply (T2 a [] (x :: b) eq_refl x (or_introl eq_refl)). exists x. reflexivity. }
      assert (Na : ~ In [] a).
      { intros I. apply in_split in I. destruct I as (a1 & a2 & ->). apply (T2 a1 [] (a2 ++ [[]])) with (r := []); [rewrite <- app_assoc; reflexivity| |apply under_refl].
        apply in_or_app. right. left. reflexivity. }
      destruct (remove_all_goes a t) as [t' R].
      * intros before q after -> r J. apply (T2 before q (after ++ [[]])); [rewrite <- app_assoc; reflexivity|]. apply in_or_app. left. exact J.
      * intros q x J B X. assert (I : In x (a ++ [[]])) by (apply T1; split; [exists x; reflexivity|exact X]). apply in_app_or in I. destruct I as [I|[<-|[]]]; [exact I|].
        destruct (below_parent _ _ B) as [Z _]. congruence.
      * exact Na.
      * rewrite (remove_entries_app a t _ t' R). cbn [remove_entries]. exists t'. split; [reflexivity|].
        destruct (remove_general a t None t' _ W R) as (G1 & G2 & _ & G4). split; [exact G1|]. split.
        -- intros q U. exfalso. apply U. exists q. reflexivity.
        -- intros q _ Nq. destruct (G2 q) as [A|[A _]]; [|exact A]. destruct (lookup t q) as [kq|] eqn:Q; [|exact A]. apply (G4 eq_refl).
           assert (I : In q (a ++ [[]])) by (apply T1; split; [exists q; reflexivity|congruence]). apply in_app_or in I. destruct I as [I|[I|[]]]; [exact I|congruence].
    + apply path_eqb_neq in E. assert (N0 : ~ In [] order).
      { intros I. apply T1 in I. destruct I as [[r R] _]. symmetry in R. apply app_eq_nil in R. tauto. }
      destruct (remove_all_goes order t T2) as [t' R].
      * intros q x J B X. apply T1. split; [|exact X]. apply T1 in J. exact (under_trans _ _ _ (proj1 J) (below_under _ _ B)).
      * exact N0.
      * exists t'. split; [exact R|]. destruct (remove_general order t None t' _ W R) as (G1 & G2 & _ & G4). split; [exact G1|]. split.
        -- intros q U. destruct (G2 q) as [A|[_ A]]; [exact A|]. apply T1 in A. tauto.
        -- intros q U _. destruct (G2 q) as [A|[A _]]; [|exact A]. destruct (lookup t q) as [kq|] eqn:Q; [|exact A]. apply (G4 eq_refl). apply T1. split; [exact U|congruence].
Qed.
Print Assumptions C94_delete_dir.

(** When it fails on the way, what is left is as it was, every entry still has its directory, and nothing outside was touched. *)
Theorem C94_delete_dir_faults : forall t v s p order fault t' r, wf t -> v_string v = s -> plain s -> names s p -> traversal t p order ->
  delete_dir t v order fault = (t', r) ->
  wf t' /\ same_outside t t' p /\ (forall q, lookup t' q = lookup t q \/ lookup t' q = None) /\
  ((r = Ok tt /\ forall k, ~ named t' s k) \/ r = Err Internal).
Proof.
  intros t v s p order fault t' r W Hv P Hp [T1 T2] E. unfold delete_dir in E. rewrite Hv, (os_name_plain s P) in E. destruct (stat t s) as [k|] eqn:S.
  - destruct (remove_general order t fault t' r W E) as (G1 & G2 & G3 & G4). split; [exact G1|]. split; [|split].
    + intros q U. destruct (G2 q) as [A|[_ A]]; [exact A|]. apply T1 in A. tauto.
    + intros q. destruct (G2 q) as [A|[A _]]; auto.
    + destruct G3 as [->|G3]; [left|right; exact G3]. split; [reflexivity|]. intros k' (_ & p' & Hp' & K & _). apply names_components in Hp, Hp'.
      assert (p' = p) as -> by congruence. apply stat_named in S. destruct S as (_ & p2 & Hp2 & K2 & _). apply names_components in Hp2. assert (p2 = p) as -> by congruence.
      rewrite (G4 eq_refl p) in K; [discriminate|]. apply T1. split; [apply under_refl|congruence].
  - assert (t' = t /\ (r = Ok tt \/ r = Err Internal)) as [-> R] by (destruct fault as [[|n]|]; injection E as <- <-; auto).
    split; [exact W|]. split; [intros q _; reflexivity|]. split; [auto|]. destruct R as [->|R]; [left; split; [reflexivity|]|right; exact R]. apply stat_none. exact S.
Qed.
Print Assumptions C94_delete_dir_faults.

(** Such an order exists for every tree. *)
Theorem C94_traversal : forall t p, exists order, traversal t p order.
Proof. exact traversal_exists. Qed.
Print Assumptions C94_traversal.

(** DeleteFile removes a file, or an empty directory, and nothing else; any failure leaves the tree as it was. The name must have a NUL behind it. *)
Theorem C94_delete_file : forall t v s p, wf t -> terminated v s -> names s p ->
  (p <> [] -> (exists c, named t s (KFile c)) \/ (named t s KDir /\ empty_dir t p) ->
   exists t', delete_file t v false = (t', Ok tt) /\ wf t' /\ lookup t' p = None /\ forall q, q <> p -> lookup t' q = lookup t q) /\
  (p = [] \/ (forall k, ~ named t s k) \/ (exists q, below p q /\ lookup t q <> None) -> delete_file t v false = (t, Err Internal)) /\
  delete_file t v true = (t, Err Internal).
Proof.
  intros t v s p W T Hp. unfold delete_file, on_c_string. rewrite (terminated_c v s T). pose proof (names_components s p Hp) as Cp.
  assert (Kp : forall k, named t s k -> lookup t p = Some k) by (intros k (_ & p' & Hp' & K & _); apply names_components in Hp'; congruence).
  split; [|split; [|reflexivity]].
  - intros N H. assert (B : forall q, below p q -> lookup t q = None).
    { destruct H as [[c K]|[_ [_ K]]]; [|exact K]. apply wf_not_dir; [exact W|]. rewrite (Kp _ K). discriminate. }
    exists (without t p). assert (E : os_remove t s = Some (without t p)).
    { unfold os_remove. rewrite Cp. destruct p; [congruence|]. destruct H as [[c K]|[K _]]; rewrite (proj2 (stat_named _ _ _) K); [reflexivity|].
      rewrite (proj2 (has_entries_false t _) B). reflexivity. }
    rewrite E. split; [reflexivity|]. split; [apply wf_without; assumption|]. split; [rewrite lookup_without, path_eqb_refl by exact N; reflexivity|].
    intros q Nq. rewrite lookup_without by exact N. apply path_eqb_neq in Nq. rewrite Nq. reflexivity.
  - intros H. assert (E : os_remove t s = None); [|rewrite E; reflexivity]. unfold os_remove. rewrite Cp. destruct H as [->|[H|H]].
    + destruct (stat t s) as [[|]|]; reflexivity.
    + apply stat_none in H. rewrite H. reflexivity.
    + destruct H as (q & B & L). pose proof (wf_above t p q W B L) as D. destruct (stat t s) as [k|] eqn:S; [|reflexivity]. apply stat_named in S. apply Kp in S.
      rewrite D in S. injection S as <-. destruct p; [reflexivity|]. rewrite (proj2 (has_entries_iff t _)) by eauto. reflexivity.
Qed.
Print Assumptions C94_delete_file.

(** RenameFile moves an entry with everything in it to the new name, replacing a file by a file or an empty directory by a directory; all else is
    as before. It works in exactly the cases in which it should, and a failure changes nothing. *)
Theorem C94_rename : forall t from to a b p q, wf t -> terminated from a -> terminated to b -> names a p -> names b q ->
  (renamable t a b p q -> exists t', rename_file t from to false = (t', Ok tt) /\ renamed t t' p q /\ wf t') /\
  (~ renamable t a b p q -> rename_file t from to false = (t, Err Internal)) /\
  rename_file t from to true = (t, Err Internal).
Proof.
  intros t from to a b p q W Ta Tb Ha Hb. unfold rename_file, on_c_string. rewrite (terminated_c from a Ta), (terminated_c to b Tb).
  destruct (os_rename_iff t a b p q W Ha Hb) as [I1 I2]. split; [|split; [|reflexivity]].
  - intros R. destruct (I1 R) as (t' & E & H). rewrite E. eauto.
  - intros R. destruct (os_rename t a b) as [t'|] eqn:E; [|reflexivity]. destruct (R (I2 t' eq_refl)).
Qed.
Print Assumptions C94_rename.

(** After any calls, with any views and any faults, every entry is in a directory, and every file has the content of a file that was there
    at the start. *)
Theorem C94_history : forall cs t, wf t ->
  wf (drun t cs) /\ forall q c, lookup (drun t cs) q = Some (KFile c) -> exists q', lookup t q' = Some (KFile c).
Proof.
  induction cs as [|c cs IH]; intros t W; cbn [drun]; [split; [exact W|eauto]|].
  assert (S : wf (fst (dstep t c)) /\ forall q d, lookup (fst (dstep t c)) q = Some (KFile d) -> exists q', lookup t q' = Some (KFile d)).
  { assert (Z : wf t /\ forall q d, lookup t q = Some (KFile d) -> exists q', lookup t q' = Some (KFile d)) by (split; [exact W|eauto]).
    destruct c as [from to f|v f|v f|v sf f|v order f]; cbn [dstep fst]; [| |exact Z| |].
    - unfold rename_file, on_c_string. destruct (c_string (v_mem from)) as [a|]; [|exact Z]. destruct (c_string (v_mem to)) as [b|]; [|exact Z].
      destruct f; [exact Z|]. destruct (os_rename t a b) as [t'|] eqn:E; [|exact Z]. cbn [fst].
      destruct (os_rename_iff t a b _ _ W (components_names a) (components_names b)) as [I1 I2]. destruct (I1 (I2 t' E)) as (u & U & R & Wu). rewrite E in U.
      injection U as <-. split; [exact Wu|]. intros q d K. set (p := components a) in *. set (p2 := components b) in *. destruct R as [R1 R2].
      destruct (list_eq_dec (list_eq_dec Byte.byte_eq_dec) p p2) as [D|D]; [rewrite (R1 D) in K; eauto|]. destruct (R2 D) as (A1 & A2 & A3).
      destruct (under_dec p2 q) as [[r ->]|V]; [rewrite A1 in K; eauto|]. destruct (under_dec p q) as [V2|V2]; [rewrite A2 in K by exact V2; discriminate|].
      rewrite A3 in K by assumption. eauto.
    - unfold delete_file, on_c_string. destruct (c_string (v_mem v)) as [s|]; [|exact Z]. destruct f; [exact Z|].
      destruct (os_remove t s) as [t'|] eqn:E; [|exact Z]. cbn [fst].
      assert (Q : components s <> [] /\ t' = without t (components s) /\ forall q, below (components s) q -> lookup t q = None).
      { unfold os_remove in E. destruct (stat t s) as [k|] eqn:S; [|discriminate]. apply stat_named in S. destruct S as (_ & p & Hp & K & _).
        apply names_components in Hp. rewrite Hp in *. destruct k as [c|].
        - destruct p; [discriminate|]. injection E as <-. split; [discriminate|]. split; [reflexivity|]. apply wf_not_dir; [exact W|]. rewrite K. discriminate.
        - destruct p; [discriminate|]. destruct (has_entries t (b :: p)) eqn:H; [discriminate|]. injection E as <-. split; [discriminate|]. split; [reflexivity|].
          apply has_entries_false. exact H. }
      destruct Q as (N & -> & B). split; [apply wf_without; assumption|]. intros q d K. rewrite lookup_without in K by exact N.
      destruct (path_eqb q (components s)); [discriminate|eauto].
    - destruct (create_dir t v sf f) as [t' r] eqn:E. cbn [fst]. destruct (create_general t v sf f t' r W E) as [W' [G1 G2]]. split; [exact W'|].
      intros q d K. destruct (lookup t q) as [k|] eqn:Q; [rewrite (G1 _ _ Q) in K; exists q; congruence|]. destruct (G2 q Q) as [A|[A _]]; congruence.
    - unfold delete_dir. destruct (stat t (os_name (v_string v))); [|destruct f as [[|]|]; exact Z].
      destruct (remove_entries t order f) as [t' r] eqn:E. cbn [fst]. destruct (remove_general order t f t' r W E) as (W' & G & _). split; [exact W'|].
      intros q d K. destruct (G q) as [A|[A _]]; [exists q; congruence|congruence]. }
  destruct S as [S1 S2]. destruct (IH _ S1) as [I1 I2]. split; [exact I1|]. intros q d K. destruct (I2 q d K) as [q' K']. exact (S2 q' d K').
Qed.
Print Assumptions C94_history.

(** A tree with a file, a directory with a file and an empty directory; the views of "ab", of the "a" in it, and of "d/e//f". *)
Definition ex_tree : tree := [([[x61]], KFile [x31]); ([[x61; x62]], KFile [x32]); ([[x64]], KDir); ([[x64]; [x63]], KFile [x33]); ([[x67]], KDir)].
Definition ex_ab : view := {| v_mem := [x61; x62; x00]; v_len := 2 |}.
Definition ex_a_in_ab : view := {| v_mem := [x61; x62; x00]; v_len := 1 |}.
Definition ex_def : view := {| v_mem := [x64; x2f; x65; x2f; x2f; x66; x00]; v_len := 6 |}.
Lemma ex_tree_wf : wf ex_tree.
Proof.
  intros p k N E. rewrite lookup_nonroot in E by exact N. unfold ex_tree in E. cbn [lookup_in] in E.
  repeat match type of E with (if path_eqb p ?q then _ else _) = _ => let H := fresh in destruct (path_eqb p q) eqn:H; [apply path_eqb_eq in H; subst p; reflexivity|clear H] end.
  discriminate.
Qed.
Example C94_example_create :
  create_dir ex_tree ex_def false (fun _ => false) = (([[x64]; [x65]; [x66]], KDir) :: ([[x64]; [x65]], KDir) :: ex_tree, Ok tt) /\
  create_dir ex_tree ex_def false (fun i => Nat.eqb i 1) = (([[x64]; [x65]], KDir) :: ex_tree, Err Internal) /\
  create_dir ex_tree ex_ab false (fun _ => false) = (ex_tree, Err Internal).
Proof. vm_compute. auto. Qed.
Example C94_example_delete_dir :
  let v := {| v_mem := [x64]; v_len := 1 |} in
  exists t', delete_dir ex_tree v [[[x64]; [x63]]; [[x64]]] None = (t', Ok tt) /\ lookup t' [[x64]; [x63]] = None /\ lookup t' [[x64]] = None /\ lookup t' [[x67]] = Some KDir.
Proof. eexists. vm_compute. auto. Qed.
Example C94_example_rename :
  let d := {| v_mem := [x64; x00]; v_len := 1 |} in
  let g := {| v_mem := [x67; x2f; x00]; v_len := 2 |} in
  renamable ex_tree [x64] [x67; x2f] [[x64]] [[x67]] /\
  exists t', rename_file ex_tree d g false = (t', Ok tt) /\ lookup t' [[x67]; [x63]] = Some (KFile [x33]) /\ lookup t' [[x64]; [x63]] = None.
Proof.
  split.
  - split; [discriminate|]. split; [discriminate|]. split; [reflexivity|]. right. split; [apply stat_named; reflexivity|]. right.
    split; [intros [r R]; discriminate|]. right. split; [reflexivity|]. apply has_entries_false. reflexivity.
  - eexists. vm_compute. auto.
Qed.

(** DeleteFile, RenameFile and File::Open hand data() of a string_view to C functions, which do not see where the view ends. Views of the same memory
    that show different names do the same: deleting "a" where it is the start of "ab" deletes "ab" and is OK. Without a NUL behind the view the
    behaviour is undefined. *)
Theorem C94_view_refuted :
  (forall t v w f, v_mem v = v_mem w -> delete_file t v f = delete_file t w f) /\
  (forall t v w x f, v_mem v = v_mem w -> rename_file t v x f = rename_file t w x f /\ rename_file t x v f = rename_file t x w f) /\
  (forall t v f, plain (v_mem v) -> delete_file t v f = (t, UB)) /\
  exists t v t', wf t /\ v_string v = [x61] /\ delete_file t v false = (t', Ok tt) /\
    lookup t' [[x61]] = Some (KFile [x31]) /\ lookup t [[x61; x62]] = Some (KFile [x32]) /\ lookup t' [[x61; x62]] = None.
Proof.
  split; [|split; [|split]].
  - intros t v w f E. unfold delete_file, on_c_string. rewrite E. reflexivity.
  - intros t v w x f E. unfold rename_file, on_c_string. rewrite E. auto.
  - intros t v f P. unfold delete_file, on_c_string. replace (c_string (v_mem v)) with (@None bytes); [reflexivity|]. unfold plain in P. symmetry.
    induction (v_mem v) as [|b m IH]; [reflexivity|]. cbn [c_string]. destruct (byte_eqb b x00) eqn:B; [apply byte_eqb_eq in B; subst b; exfalso; apply P; left; reflexivity|].
    rewrite IH; [reflexivity|]. intros I. apply P. right. exact I.
  - exists ex_tree, ex_a_in_ab. eexists. split; [exact ex_tree_wf|]. vm_compute. auto.
Qed.
Print Assumptions C94_view_refuted.

(** The functions on directories cut a name at its first NUL, so that they find, or delete, something that was not named. *)
Theorem C94_cut_refuted : exists t v t', wf t /\ v_string v = [x61; x00; x7a] /\ file_exists t v false = Ok tt /\
  traversal t [[x61]] [[[x61]]] /\ delete_dir t v [[[x61]]] None = (t', Ok tt) /\ lookup t [[x61]] = Some (KFile [x31]) /\ lookup t' [[x61]] = None.
Proof.
  exists ex_tree, {| v_mem := [x61; x00; x7a]; v_len := 3 |}. eexists. split; [exact ex_tree_wf|]. split; [reflexivity|]. split; [reflexivity|]. split; [|vm_compute; auto].
  split.
  - intros q. split.
    + intros [<-|[]]. split; [apply under_refl|discriminate].
    + intros [U L]. left. apply under_below in U. destruct U as [->|U]; [reflexivity|]. exfalso. apply L.
      apply (wf_not_dir ex_tree [[x61]] ex_tree_wf); [discriminate|exact U].
  - intros [|x before] q after E r I; [injection E as <- <-; destruct I|]. destruct before; discriminate.
Qed.
Print Assumptions C94_cut_refuted.

(** FileExists does not report that the state of a file cannot be read: it throws. *)
Theorem C94_exists_refuted : forall t v, file_exists t v true = Crash.
Proof. reflexivity. Qed.
Print Assumptions C94_exists_refuted.
