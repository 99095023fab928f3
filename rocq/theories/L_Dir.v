(** Lemmas on names and trees. *)
From Coq Require Import Sorting.Sorted.
From Verif Require Import Base M_Dir S_Dir.

(** Names. *)
Lemma path_eqb_eq p q : path_eqb p q = true <-> p = q.
Proof. unfold path_eqb. match goal with |- context [list_eq_dec ?d p q] => destruct (list_eq_dec d p q) end; split; congruence. Qed.
Lemma path_eqb_neq p q : path_eqb p q = false <-> p <> q.
Proof. unfold path_eqb. match goal with |- context [list_eq_dec ?d p q] => destruct (list_eq_dec d p q) end; split; congruence. Qed.
Lemma path_eqb_refl p : path_eqb p p = true.
Proof. apply path_eqb_eq. reflexivity. Qed.
Lemma byte_eqb_neq a b : byte_eqb a b = false <-> a <> b.
Proof. destruct (byte_eqb a b) eqn:E; [apply byte_eqb_eq in E|]; split; try congruence. intros _ Q. apply byte_eqb_eq in Q. congruence. Qed.

Lemma split_names s : forall cur p, ~ In x2f cur -> split_slash s cur = p ->
  (cur = [] -> names s p) /\ (cur <> [] -> names (cur ++ s) p).
Proof.
  induction s as [|b s IH]; intros cur p N E; cbn [split_slash] in E.
  - split; intros Hc.
    + subst cur. subst p. constructor.
    + destruct cur as [|c cur]; [congruence|]. subst p. apply names_component; [congruence|exact N|constructor|left; reflexivity].
  - destruct (byte_eqb b x2f) eqn:B.
    + apply byte_eqb_eq in B. subst b. destruct cur as [|c cur].
      * split; [intros _|congruence]. constructor. exact (proj1 (IH [] p (fun F => F) E) eq_refl).
      * split; [congruence|intros _]. subst p. apply names_component; [congruence|exact N| |right; eauto].
        constructor. exact (proj1 (IH [] _ (fun F => F) eq_refl) eq_refl).
    + apply byte_eqb_neq in B. assert (N' : ~ In x2f (cur ++ [b])) by (rewrite in_app_iff; cbn; intuition).
      destruct (IH (cur ++ [b]) p N' E) as [_ H2]. assert (Q : cur ++ [b] <> []) by (destruct cur; discriminate). specialize (H2 Q).
      rewrite <- app_assoc in H2. split; [intros ->; exact H2|intros _; exact H2].
Qed.
Lemma components_names s : names s (components s).
Proof. exact (proj1 (split_names s [] (components s) (fun F => F) eq_refl) eq_refl). Qed.
Lemma split_component c s : forall cur, ~ In x2f c -> split_slash (c ++ s) cur = split_slash s (cur ++ c).
Proof.
  induction c as [|b c IH]; intros cur N; cbn [app split_slash]; [rewrite app_nil_r; reflexivity|].
  destruct (byte_eqb b x2f) eqn:B; [apply byte_eqb_eq in B; subst b; exfalso; apply N; left; reflexivity|].
  rewrite IH by (intros Q; apply N; right; exact Q). rewrite <- app_assoc. reflexivity.
Qed.
Lemma names_components s p : names s p -> components s = p.
Proof.
  unfold components. induction 1 as [|s p H IH|c s p Hc N H IH D]; [reflexivity| |].
  - cbn [split_slash]. rewrite byte_eqb_refl. exact IH.
  - rewrite split_component by exact N. cbn [app]. destruct c as [|b c]; [congruence|]. destruct D as [->|[r ->]].
    + cbn in *. subst p. reflexivity.
    + cbn [split_slash] in *. rewrite byte_eqb_refl in *. rewrite IH. reflexivity.
Qed.
Lemma trailing_iff s : trailing_slash s = true <-> ends_in_slash s.
Proof.
  unfold trailing_slash, ends_in_slash. destruct s as [|b s _] using rev_ind.
  - cbn. split; [discriminate|intros [r E]; destruct r; discriminate].
  - rewrite last_last. rewrite byte_eqb_eq. split; [intros ->; eauto|intros [r E]; apply app_inj_tail in E; tauto].
Qed.
Lemma trailing_false s : trailing_slash s = false <-> ~ ends_in_slash s.
Proof. rewrite <- trailing_iff. destruct (trailing_slash s); split; congruence. Qed.
Lemma stat_named t s k : stat t s = Some k <-> named t s k.
Proof.
  unfold stat, named. destruct s as [|b s]; [split; [discriminate|intros [N _]; congruence]|].
  set (z := b :: s). split.
  - intros E. split; [discriminate|]. exists (components z). split; [apply components_names|].
    destruct (lookup t (components z)) as [[c|]|]; try discriminate; [|split; [exact E|left; congruence]].
    destruct (trailing_slash z) eqn:T; [discriminate|]. split; [exact E|right; apply trailing_false; exact T].
  - intros [_ (p & N & E & D)]. apply names_components in N. rewrite N, E. destruct k as [c|]; [|reflexivity].
    destruct D as [D|D]; [discriminate|]. apply trailing_false in D. rewrite D. reflexivity.
Qed.
Lemma stat_none t s : stat t s = None <-> forall k, ~ named t s k.
Proof.
  destruct (stat t s) as [k|] eqn:E.
  - split; [discriminate|]. intros H. exfalso. apply (H k). apply stat_named. exact E.
  - split; [|reflexivity]. intros _ k N. apply stat_named in N. congruence.
Qed.
Lemma os_name_plain s : plain s -> os_name s = s.
Proof.
  unfold plain. induction s as [|b s IH]; intros P; cbn [os_name]; [reflexivity|].
  destruct (byte_eqb b x00) eqn:B; [apply byte_eqb_eq in B; subst b; exfalso; apply P; left; reflexivity|].
  rewrite IH; [reflexivity|]. intros Q. apply P. right. exact Q.
Qed.
Lemma c_string_plain s rest : plain s -> c_string (s ++ x00 :: rest) = Some s.
Proof.
  unfold plain. induction s as [|b s IH]; intros P; cbn [app c_string]; [rewrite byte_eqb_refl; reflexivity|].
  destruct (byte_eqb b x00) eqn:B; [apply byte_eqb_eq in B; subst b; exfalso; apply P; left; reflexivity|].
  rewrite IH; [reflexivity|]. intros Q. apply P. right. exact Q.
Qed.
Lemma terminated_c v s : terminated v s -> c_string (v_mem v) = Some s.
Proof. intros (P & _ & rest & ->). apply c_string_plain. exact P. Qed.
Lemma terminated_string v s : terminated v s -> v_string v = s.
Proof. intros (P & L & rest & E). unfold v_string. rewrite L, E. rewrite firstn_app, Nat.sub_diag, firstn_all. cbn. apply app_nil_r. Qed.

(** Prefixes. *)
Lemma is_prefix_under p : forall q, is_prefix p q = true <-> under p q.
Proof.
  unfold under. induction p as [|a p IH]; intros q; cbn [is_prefix].
  - split; [exists q; reflexivity|reflexivity].
  - destruct q as [|b q]; [split; [discriminate|intros [r E]; discriminate]|]. rewrite andb_true_iff, bytes_eqb_eq, IH. split.
    + intros [-> [r ->]]. exists r. reflexivity.
    + intros [r E]. injection E as -> ->. eauto.
Qed.
Lemma is_prefix_false p q : is_prefix p q = false <-> ~ under p q.
Proof. rewrite <- is_prefix_under. destruct (is_prefix p q); split; congruence. Qed.
Lemma under_refl p : under p p.
Proof. exists []. symmetry. apply app_nil_r. Qed.
Lemma under_trans p q r : under p q -> under q r -> under p r.
Proof. intros [a ->] [b ->]. exists (a ++ b). apply eq_sym, app_assoc. Qed.
Lemma under_antisym p q : under p q -> under q p -> p = q.
Proof.
  intros [a ->] [b E]. rewrite <- app_assoc in E. rewrite <- (app_nil_r p) in E at 1. apply app_inv_head in E. symmetry in E. apply app_eq_nil in E.
  destruct E as [-> _]. symmetry. apply app_nil_r.
Qed.
Lemma under_dec p q : {under p q} + {~ under p q}.
Proof. destruct (is_prefix p q) eqn:E; [left; apply is_prefix_under|right; apply is_prefix_false]; exact E. Qed.
Lemma under_below p q : under p q <-> q = p \/ below p q.
Proof.
  split.
  - intros [r ->]. destruct r as [|a r]; [left; apply app_nil_r|right; exists (a :: r); split; [congruence|reflexivity]].
  - intros [->|(r & _ & ->)]; [apply under_refl|exists r; reflexivity].
Qed.
Lemma below_under p q : below p q -> under p q.
Proof. intros H. apply under_below. right. exact H. Qed.
Lemma below_irrefl p : ~ below p p.
Proof. intros (r & N & E). rewrite <- (app_nil_r p) in E at 1. apply app_inv_head in E. congruence. Qed.
Lemma below_parent p q : below p q -> q <> [] /\ under p (removelast q).
Proof.
  intros (r & N & ->). split; [intros Q; apply app_eq_nil in Q; tauto|]. rewrite removelast_app by exact N. exists (removelast r). reflexivity.
Qed.
Lemma parent_under q : under (removelast q) q.
Proof. destruct q as [|b q _] using rev_ind; [apply under_refl|]. rewrite removelast_last. exists [b]. reflexivity. Qed.
Lemma parent_not_under q : q <> [] -> ~ under q (removelast q).
Proof.
  destruct q as [|b q _] using rev_ind; [congruence|]. intros _. rewrite removelast_last. intros [r E]. apply (f_equal (@length _)) in E.
  rewrite !app_length in E. cbn in E. lia.
Qed.
Lemma under_firstn q p : under q p -> exists n, (n <= length p)%nat /\ q = firstn n p.
Proof.
  intros [r ->]. exists (length q). rewrite app_length. split; [lia|]. rewrite firstn_app, Nat.sub_diag, firstn_all. cbn. symmetry. apply app_nil_r.
Qed.
Lemma firstn_under n (p : path) : under (firstn n p) p.
Proof. exists (skipn n p). symmetry. apply firstn_skipn. Qed.
Lemma removelast_firstn_S n (p : path) : (n < length p)%nat -> removelast (firstn (S n) p) = firstn n p.
Proof. intros H. apply removelast_firstn. exact H. Qed.
Lemma under_app p q x : under p x -> under q x -> under p q \/ under q p.
Proof.
  intros [a ->] [b E]. revert q b E. induction p as [|c p IH]; intros q b E; [left; exists q; reflexivity|].
  destruct q as [|d q]; [right; exists (c :: p); reflexivity|]. injection E as <- E. destruct (IH _ _ E) as [[r ->]|[r ->]]; [left|right]; exists r; reflexivity.
Qed.

(** Trees. *)
Lemma lookup_cons p k t q : p <> [] -> lookup ((p, k) :: t) q = if path_eqb q p then Some k else lookup t q.
Proof. intros N. destruct q as [|b q]; cbn [lookup lookup_in]; [|reflexivity]. destruct (path_eqb [] p) eqn:E; [apply path_eqb_eq in E; congruence|reflexivity]. Qed.
Lemma lookup_nonroot t p : p <> [] -> lookup t p = lookup_in t p.
Proof. destruct p; [congruence|reflexivity]. Qed.
Lemma lookup_in_without t p q : lookup_in (without t p) q = if path_eqb q p then None else lookup_in t q.
Proof.
  induction t as [|[x k] t IH]; cbn [without filter fst lookup_in]; [destruct (path_eqb q p); reflexivity|].
  fold (without t p). destruct (path_eqb p x) eqn:E; cbn [negb].
  - rewrite IH. apply path_eqb_eq in E. subst x. destruct (path_eqb q p); reflexivity.
  - cbn [lookup_in]. rewrite IH. destruct (path_eqb q x) eqn:F; [|reflexivity]. apply path_eqb_eq in F. subst x.
    destruct (path_eqb q p) eqn:G; [apply path_eqb_eq in G; subst; rewrite path_eqb_refl in E; discriminate|reflexivity].
Qed.
Lemma lookup_without t p q : p <> [] -> lookup (without t p) q = if path_eqb q p then None else lookup t q.
Proof.
  intros N. destruct q as [|b q]; cbn [lookup]; [|apply lookup_in_without]. destruct (path_eqb [] p) eqn:E; [apply path_eqb_eq in E; congruence|reflexivity].
Qed.
Lemma lookup_in_some t p : lookup_in t p <> None <-> exists k, In (p, k) t.
Proof.
  induction t as [|[x k] t IH]; cbn [lookup_in]; [split; [congruence|intros [k []]]|].
  destruct (path_eqb p x) eqn:E.
  - apply path_eqb_eq in E. subst x. split; [intros _; exists k; left; reflexivity|discriminate].
  - rewrite IH. apply path_eqb_neq in E. split; intros [j H]; exists j; [right; exact H|]. destruct H as [H|H]; [congruence|exact H].
Qed.
Lemma has_entries_iff t p : has_entries t p = true <-> exists q, below p q /\ lookup t q <> None.
Proof.
  unfold has_entries. rewrite existsb_exists. split.
  - intros [[q k] [H E]]. cbn [fst] in E. apply andb_true_iff in E. destruct E as [U E]. apply is_prefix_under in U. apply negb_true_iff, path_eqb_neq in E.
    apply under_below in U. destruct U as [U|U]; [congruence|]. exists q. split; [exact U|]. rewrite lookup_nonroot by apply (below_parent p q U).
    apply lookup_in_some. eauto.
  - intros (q & B & H). rewrite lookup_nonroot in H by apply (below_parent p q B). apply lookup_in_some in H. destruct H as [k H]. exists (q, k).
    split; [exact H|]. cbn [fst]. apply andb_true_iff. split; [apply is_prefix_under, below_under, B|]. apply negb_true_iff, path_eqb_neq. intros ->.
    exact (below_irrefl q B).
Qed.
Lemma has_entries_false t p : has_entries t p = false <-> forall q, below p q -> lookup t q = None.
Proof.
  split.
  - intros E q B. destruct (lookup t q) eqn:K; [|reflexivity]. assert (T : has_entries t p = true) by (apply has_entries_iff; exists q; split; [exact B|congruence]).
    congruence.
  - intros H. destruct (has_entries t p) eqn:E; [|reflexivity]. apply has_entries_iff in E. destruct E as (q & B & K). rewrite (H q B) in K. congruence.
Qed.
(** In a well-formed tree everything above an entry is a directory. *)
Lemma wf_above t p q : wf t -> below p q -> lookup t q <> None -> lookup t p = Some KDir.
Proof.
  intros W (r & N & ->). revert N. induction r as [|b r IH] using rev_ind; [congruence|]. intros _ H.
  rewrite app_assoc in H. destruct (lookup t ((p ++ r) ++ [b])) as [k|] eqn:E; [|congruence].
  pose proof (W ((p ++ r) ++ [b]) k ltac:(intros Q; apply app_eq_nil in Q; destruct Q; discriminate) E) as D. rewrite removelast_last in D. destruct r as [|c r]; [rewrite app_nil_r in D; exact D|].
  apply IH; [discriminate|congruence].
Qed.
Lemma wf_not_dir t p : wf t -> lookup t p <> Some KDir -> forall q, below p q -> lookup t q = None.
Proof. intros W N q B. destruct (lookup t q) eqn:E; [|reflexivity]. exfalso. apply N. apply (wf_above t p q W B). congruence. Qed.
Lemma wf_without t p : wf t -> p <> [] -> (forall q, below p q -> lookup t q = None) -> wf (without t p).
Proof.
  intros W N H q k Nq E. rewrite lookup_without in * by exact N. destruct (path_eqb q p) eqn:Q; [discriminate|].
  destruct (path_eqb (removelast q) p) eqn:R; [|exact (W q k Nq E)]. apply path_eqb_eq in R. subst p. rewrite H in E; [discriminate|].
  destruct q as [|b q _] using rev_ind; [congruence|]. rewrite removelast_last. exists [b]. split; [discriminate|reflexivity].
Qed.
Lemma wf_mkdir t p : wf t -> p <> [] -> lookup t (removelast p) = Some KDir -> lookup t p = None -> wf ((p, KDir) :: t).
Proof.
  intros W N D A q k Nq E. rewrite lookup_cons in * by exact N. destruct (path_eqb (removelast q) p) eqn:R; [reflexivity|].
  destruct (path_eqb q p) eqn:Q; [apply path_eqb_eq in Q; subst q; exact D|exact (W q k Nq E)].
Qed.

(** Making directories. *)
Lemma grown_refl t p : grown t t p.
Proof. split; [auto|intros q H; left; exact H]. Qed.
Lemma grown_step t p q t' : q <> [] -> under q p -> lookup t q = None -> grown ((q, KDir) :: t) t' p -> grown t t' p.
Proof.
  intros N U A [H1 H2]. split; intros x.
  - intros k E. apply H1. rewrite lookup_cons by exact N. destruct (path_eqb x q) eqn:Q; [apply path_eqb_eq in Q; congruence|exact E].
  - intros E. destruct (path_eqb x q) eqn:Q.
    + apply path_eqb_eq in Q. subst x. right. split; [|exact U]. apply H1. rewrite lookup_cons by exact N. rewrite path_eqb_refl. reflexivity.
    + apply H2. rewrite lookup_cons by exact N. rewrite Q. exact E.
Qed.
Lemma firstn_S_nonempty n (p : path) : (n < length p)%nat -> firstn (S n) p <> [].
Proof. destruct p; cbn; [lia|discriminate]. Qed.
Lemma firstn_proper n (p : path) : (n < length p)%nat -> firstn n p <> p.
Proof. intros H E. apply (f_equal (@length _)) in E. rewrite firstn_length in E. lia. Qed.
Lemma make_dirs_general fault p count : forall t n i made t' r, wf t -> lookup t (firstn n p) = Some KDir -> (n + count = length p)%nat ->
  make_dirs fault t p n count i made = (t', r) ->
  wf t' /\ grown t t' p /\
  (r = Err Internal \/ exists b, r = Ok b) /\
  (r = Err Internal -> lookup t' p = lookup t p) /\
  (forall b, r = Ok b -> lookup t' p = Some KDir) /\
  (forall b, r = Ok b -> lookup t p <> Some KDir -> lookup t p = None /\ b = true) /\
  ((forall j, fault j = false) -> r = Err Internal -> file_in_the_way t p).
Proof.
  induction count as [|count IH]; intros t n i made t' r W D L E; cbn [make_dirs] in E.
  - injection E as <- <-. assert (Hn : firstn n p = p) by (apply firstn_all2; lia). rewrite Hn in D.
    split; [exact W|]. split; [apply grown_refl|]. split; [right; eauto|]. split; [discriminate|]. split; [intros b _; exact D|]. split; [congruence|discriminate].
  - assert (Hn : (n < length p)%nat) by lia. pose proof (firstn_S_nonempty n p Hn) as Nq. pose proof (firstn_under (S n) p) as Uq.
    set (q := firstn (S n) p) in *. destruct (fault i) eqn:F.
    { injection E as <- <-. split; [exact W|]. split; [apply grown_refl|]. split; [auto|]. split; [auto|]. split; [discriminate|]. split; [discriminate|].
      intros A. rewrite A in F. discriminate. }
    destruct (lookup t q) as [[c|]|] eqn:K.
    + injection E as <- <-. split; [exact W|]. split; [apply grown_refl|]. split; [auto|]. split; [auto|]. split; [discriminate|]. split; [discriminate|].
      intros _ _. exists q, c. auto.
    + apply IH in E; [|exact W|exact K|lia]. exact E.
    + assert (W' : wf ((q, KDir) :: t)).
      { apply wf_mkdir; try assumption. unfold q. rewrite removelast_firstn_S by exact Hn. exact D. }
      assert (K' : lookup ((q, KDir) :: t) q = Some KDir) by (rewrite lookup_cons by exact Nq; rewrite path_eqb_refl; reflexivity).
      destruct count as [|count].
      * assert (Hq : q = p) by (apply firstn_all2; lia). cbn [make_dirs] in E. injection E as <- <-. rewrite Hq in *.
        split; [exact W'|]. split; [apply (grown_step t p p); auto using grown_refl|]. split; [right; eauto|]. split; [discriminate|].
        split; [intros b _; exact K'|]. split; [|discriminate]. intros b [= <-] _. auto.
      * assert (Hq : q <> p) by (apply firstn_proper; lia).
        assert (P : lookup ((q, KDir) :: t) p = lookup t p).
        { rewrite lookup_cons by exact Nq. destruct (path_eqb p q) eqn:Q; [apply path_eqb_eq in Q; congruence|reflexivity]. }
        apply IH in E; [|exact W'|exact K'|lia]. rewrite P in E. destruct E as (E1 & E2 & E3 & E4 & E5 & E6 & E7).
        split; [exact E1|]. split; [apply (grown_step t p q); assumption|]. split; [exact E3|]. split; [exact E4|]. split; [exact E5|]. split; [exact E6|].
        intros A B. destruct (E7 A B) as (x & c & U & Hx). exists x, c. split; [exact U|]. rewrite lookup_cons in Hx by exact Nq.
        destruct (path_eqb x q); [discriminate|exact Hx].
Qed.
Lemma first_missing_dir t p n : forall k, first_missing t p n = Some k -> (k <= n)%nat /\ lookup t (firstn k p) = Some KDir.
Proof.
  induction n as [|n IH]; intros k E; cbn [first_missing] in E.
  - injection E as <-. split; [lia|reflexivity].
  - destruct (lookup t (firstn (S n) p)) as [[c|]|] eqn:K; [discriminate| |].
    + injection E as <-. split; [lia|exact K].
    + destruct (IH k E). split; [lia|assumption].
Qed.
Lemma first_missing_file t p n : first_missing t p n = None -> file_in_the_way t p.
Proof.
  induction n as [|n IH]; intros E; cbn [first_missing] in E; [discriminate|].
  destruct (lookup t (firstn (S n) p)) as [[c|]|] eqn:K; [|discriminate|auto]. exists (firstn (S n) p), c. split; [apply firstn_under|exact K].
Qed.
Lemma create_general t v sf fault t' r : wf t -> create_dir t v sf fault = (t', r) ->
  wf t' /\ grown t t' (components (os_name (v_string v))).
Proof.
  intros W E. unfold create_dir in E. set (s := os_name (v_string v)) in *. set (p := components s) in *.
  destruct sf; [injection E as <- <-; auto using grown_refl|]. destruct (v_string v); [injection E as <- <-; auto using grown_refl|].
  destruct (stat t s) as [[c|]|]; [injection E as <- <-; auto using grown_refl..|].
  destruct (first_missing t p (pred (length p))) as [n|] eqn:F; [|injection E as <- <-; auto using grown_refl].
  destruct (1000 <? length p - n)%nat; [injection E as <- <-; auto using grown_refl|].
  apply first_missing_dir in F. destruct F as [Hn D].
  destruct (make_dirs fault t p n (length p - n) 0 false) as [t1 r1] eqn:K.
  apply make_dirs_general in K; [|exact W|exact D|lia]. destruct K as (K1 & K2 & _).
  destruct r1 as [[|]|c| | |]; injection E as <- <-; auto.
Qed.
Lemma create_outcome t v sf fault t' r s p : wf t -> v_string v = s -> plain s -> s <> [] -> names s p -> create_dir t v sf fault = (t', r) ->
  (r = Ok tt /\ lookup t p = None /\ lookup t' p = Some KDir) \/
  (r = Err AlreadyExists /\ t' = t /\ lookup t p = Some KDir) \/
  (r = Err Internal /\ lookup t' p = lookup t p /\
   ((sf = false /\ (forall j, fault j = false) /\ (length p <= 1000)%nat) -> lookup t p <> Some KDir /\ file_in_the_way t p)).
Proof.
  intros W Hv P N Hp E. unfold create_dir in E. rewrite Hv, (os_name_plain s P), (names_components s p Hp) in E.
  destruct sf; [injection E as <- <-; right; right; split; [reflexivity|split; [reflexivity|intros (A & _); discriminate]]|].
  destruct s as [|b0 s0]; [congruence|]. set (s := b0 :: s0) in *.
  destruct (stat t s) as [[c|]|] eqn:S.
  - injection E as <- <-. right; right. split; [reflexivity|split; [reflexivity|]]. intros _. apply stat_named in S. destruct S as (_ & p' & Hp' & K & _).
    apply names_components in Hp', Hp. rewrite Hp in Hp'. subst p'. split; [congruence|]. exists p, c. split; [apply under_refl|exact K].
  - injection E as <- <-. right; left. split; [reflexivity|split; [reflexivity|]]. apply stat_named in S. destruct S as (_ & p' & Hp' & K & _).
    apply names_components in Hp', Hp. rewrite Hp in Hp'. subst p'. exact K.
  - assert (ND : lookup t p <> Some KDir).
    { intros K. apply (proj1 (stat_none t s) S KDir). split; [exact N|]. exists p. auto. }
    destruct (first_missing t p (pred (length p))) as [n|] eqn:F.
    2:{ injection E as <- <-. right; right. split; [reflexivity|split; [reflexivity|]]. intros _. split; [exact ND|]. exact (first_missing_file _ _ _ F). }
    apply first_missing_dir in F. destruct F as [Hn D].
    destruct (1000 <? length p - n)%nat eqn:B.
    { injection E as <- <-. right; right. split; [reflexivity|split; [reflexivity|]]. intros (_ & _ & L). apply Nat.ltb_lt in B. lia. }
    destruct (make_dirs fault t p n (length p - n) 0 false) as [t1 r1] eqn:K.
    apply make_dirs_general in K; [|exact W|exact D|lia]. destruct K as (_ & _ & [->|[b ->]] & K4 & K5 & K6 & K7).
    + injection E as <- <-. right; right. split; [reflexivity|]. split; [exact (K4 eq_refl)|]. intros (_ & A & _). split; [exact ND|]. exact (K7 A eq_refl).
    + destruct (K6 b eq_refl ND) as [A ->]. injection E as <- <-. left. split; [reflexivity|]. split; [exact A|exact (K5 true eq_refl)].
Qed.

(** Removing. *)
Lemma remove_general order : forall t fault t' r, wf t -> remove_entries t order fault = (t', r) ->
  wf t' /\ (forall q, lookup t' q = lookup t q \/ (lookup t' q = None /\ In q order)) /\ (r = Ok tt \/ r = Err Internal) /\
  (r = Ok tt -> forall q, In q order -> lookup t' q = None).
Proof.
  induction order as [|q order IH]; intros t fault t' r W E; cbn [remove_entries] in E.
  - injection E as <- <-. split; [exact W|]. split; [auto|]. split; [auto|]. intros _ q [].
  - assert (Z : (t, @Err unit Internal) = (t', r) -> wf t' /\ (forall x, lookup t' x = lookup t x \/ (lookup t' x = None /\ In x (q :: order))) /\ (r = Ok tt \/ r = Err Internal) /\
      (r = Ok tt -> forall x, In x (q :: order) -> lookup t' x = None)).
    { intros [= <- <-]. split; [exact W|]. split; [auto|]. split; [auto|]. discriminate. }
    assert (M : match q with [] => (t, Err Internal) | _ => if has_entries t q then (t, Err Internal) else remove_entries (without t q) order (option_map pred fault) end = (t', r)
      \/ (t, @Err unit Internal) = (t', r)) by (destruct fault as [[|n]|]; auto).
    clear E. destruct M as [E|E]; [|exact (Z E)].
    assert (Q : q = [] \/ q <> []) by (destruct q; [left; reflexivity|right; discriminate]). destruct Q as [->|N]; [exact (Z E)|].
    assert (E' : (if has_entries t q then (t, Err Internal) else remove_entries (without t q) order (option_map pred fault)) = (t', r)) by (destruct q; [congruence|exact E]).
    clear E. destruct (has_entries t q) eqn:H; [exact (Z E')|]. pose proof (proj1 (has_entries_false t q) H) as Hq.
    apply IH in E'; [|apply wf_without; assumption]. destruct E' as (E1 & E2 & E3 & E4). split; [exact E1|]. split; [|split; [exact E3|]].
    + intros x. destruct (E2 x) as [A|[A B]]; [|right; split; [exact A|right; exact B]]. rewrite lookup_without in A by exact N.
      destruct (path_eqb x q) eqn:Q; [|left; exact A]. apply path_eqb_eq in Q. subst x. right. split; [exact A|left; reflexivity].
    + intros R x [<-|X]; [|exact (E4 R x X)]. destruct (E2 q) as [A|[A _]]; [|exact A]. rewrite lookup_without, path_eqb_refl in A by exact N. exact A.
Qed.
(** A traversal that meets no fault gets to its end. *)
Lemma remove_all_goes order : forall t, (forall before q after, order = before ++ q :: after -> forall r, In r after -> ~ under q r) ->
  (forall q x, In q order -> below q x -> lookup t x <> None -> In x order) -> ~ In [] order ->
  exists t', remove_entries t order None = (t', Ok tt).
Proof.
  induction order as [|q order IH]; intros t T C N; cbn [remove_entries]; [eauto|].
  assert (Nq : q <> []) by (intros ->; apply N; left; reflexivity).
  assert (H : has_entries t q = false).
  { apply has_entries_false. intros x B. destruct (lookup t x) eqn:K; [|reflexivity]. exfalso.
    assert (I : In x (q :: order)) by (apply (C q x); [left; reflexivity|exact B|congruence]). destruct I as [->|I]; [exact (below_irrefl x B)|].
    exact (T [] q order eq_refl x I (below_under q x B)). }
  destruct (IH (without t q)) as [t' E].
  - intros before y after ->. apply (T (q :: before) y after). reflexivity.
  - intros y x I B L. rewrite lookup_without in L by exact Nq. destruct (path_eqb x q) eqn:Q; [congruence|]. apply path_eqb_neq in Q.
    destruct (C y x (or_intror I) B L) as [F|F]; [congruence|exact F].
  - intros F. apply N. right. exact F.
  - exists t'. destruct q; [congruence|]. rewrite H. exact E.
Qed.
(** Without a fault the root stops the traversal at its end, with everything else gone. *)
Lemma remove_entries_app a : forall t b t', remove_entries t a None = (t', Ok tt) -> remove_entries t (a ++ b) None = remove_entries t' b None.
Proof.
  induction a as [|q a IH]; intros t b t' E; cbn [app remove_entries] in *; [congruence|].
  destruct q; [discriminate|]. destruct (has_entries t (b0 :: q)); [discriminate|]. cbn [option_map] in *. exact (IH _ _ _ E).
Qed.

(** Renaming. *)
Lemma skipn_app_all {A} (p r : list A) : skipn (length p) (p ++ r) = r.
Proof. rewrite skipn_app, skipn_all, Nat.sub_diag. reflexivity. Qed.
Lemma lookup_in_moved src dst t x : ~ under src dst -> ~ under dst src -> (forall q k, In (q, k) t -> ~ under dst q) ->
  lookup_in (map (fun e => (moved src dst (fst e), snd e)) t) x =
  if is_prefix dst x then lookup_in t (src ++ skipn (length dst) x) else if is_prefix src x then None else lookup_in t x.
Proof.
  intros D1 D2. induction t as [|[q k] t IH]; intros H; cbn [map lookup_in fst snd].
  - destruct (is_prefix dst x), (is_prefix src x); reflexivity.
  - rewrite IH by (intros q' k' I; apply (H q' k'); right; exact I). clear IH. pose proof (H q k (or_introl eq_refl)) as Hq. unfold moved.
    destruct (is_prefix src q) eqn:S.
    + apply is_prefix_under in S. destruct S as [r ->]. rewrite skipn_app_all. destruct (is_prefix dst x) eqn:X.
      * apply is_prefix_under in X. destruct X as [y ->]. rewrite skipn_app_all. destruct (path_eqb (dst ++ y) (dst ++ r)) eqn:Q.
        -- apply path_eqb_eq, app_inv_head in Q. subst y. rewrite path_eqb_refl. reflexivity.
        -- replace (path_eqb (src ++ y) (src ++ r)) with false; [reflexivity|]. symmetry. apply path_eqb_neq. intros E. apply app_inv_head in E. subst y.
           rewrite path_eqb_refl in Q. discriminate.
      * replace (path_eqb x (dst ++ r)) with false.
        2:{ symmetry. apply path_eqb_neq. intros ->. apply is_prefix_false in X. apply X. exists r. reflexivity. }
        destruct (is_prefix src x) eqn:Y; [reflexivity|]. replace (path_eqb x (src ++ r)) with false; [reflexivity|].
        symmetry. apply path_eqb_neq. intros ->. apply is_prefix_false in Y. apply Y. exists r. reflexivity.
    + apply is_prefix_false in S. destruct (is_prefix dst x) eqn:X.
      * apply is_prefix_under in X. destruct X as [y ->]. rewrite skipn_app_all. replace (path_eqb (dst ++ y) q) with false.
        2:{ symmetry. apply path_eqb_neq. intros <-. apply Hq. exists y. reflexivity. }
        replace (path_eqb (src ++ y) q) with false; [reflexivity|]. symmetry. apply path_eqb_neq. intros <-. apply S. exists y. reflexivity.
      * destruct (path_eqb x q) eqn:Q; [|reflexivity]. apply path_eqb_eq in Q. subst x. replace (is_prefix src q) with false; [reflexivity|].
        symmetry. apply is_prefix_false. exact S.
Qed.
(** The names are apart, and nothing is below the new one. *)
Lemma lookup_renamed t src dst : src <> [] -> dst <> [] -> ~ under src dst -> ~ under dst src -> (forall q, below dst q -> lookup t q = None) ->
  renamed t (map (fun e => (moved src dst (fst e), snd e)) (without t dst)) src dst.
Proof.
  intros Ns Nd D1 D2 H. split; [intros ->; exfalso; apply D1, under_refl|]. intros _.
  assert (G : forall x, lookup_in (map (fun e => (moved src dst (fst e), snd e)) (without t dst)) x =
    if is_prefix dst x then lookup_in (without t dst) (src ++ skipn (length dst) x) else if is_prefix src x then None else lookup_in (without t dst) x).
  { intros x. apply lookup_in_moved; try assumption. intros q k I U. unfold without in I. apply filter_In in I. destruct I as [I E]. cbn [fst] in E.
    apply negb_true_iff, path_eqb_neq in E. apply under_below in U. destruct U as [->|U]; [congruence|]. pose proof (H q U) as A.
    rewrite lookup_nonroot in A by apply (below_parent dst q U). apply (proj2 (lookup_in_some t q)); eauto. }
  assert (NZ : forall a r : path, a <> [] -> a ++ r <> []) by (intros a r Na Q; apply app_eq_nil in Q; tauto).
  split; [|split].
  - intros r. rewrite !lookup_nonroot by auto. rewrite G. replace (is_prefix dst (dst ++ r)) with true by (symmetry; apply is_prefix_under; exists r; reflexivity).
    rewrite skipn_app_all, lookup_in_without. replace (path_eqb (src ++ r) dst) with false; [reflexivity|]. symmetry. apply path_eqb_neq. intros E. apply D1. exists r. auto.
  - intros x U. assert (x <> []) by (destruct U as [r ->]; auto). rewrite lookup_nonroot by assumption. rewrite G.
    replace (is_prefix dst x) with false. 2:{ symmetry. apply is_prefix_false. intros V. destruct (under_app _ _ _ U V); contradiction. }
    replace (is_prefix src x) with true by (symmetry; apply is_prefix_under; exact U). reflexivity.
  - intros x U V. destruct x as [|a x]; [reflexivity|]. cbn [lookup]. rewrite G. apply is_prefix_false in U, V. rewrite U, V, lookup_in_without.
    replace (path_eqb (a :: x) dst) with false; [reflexivity|]. symmetry. apply path_eqb_neq. intros <-. apply is_prefix_false in V. apply V, under_refl.
Qed.
Lemma renamed_wf t t' src dst : wf t -> src <> dst -> src <> [] -> dst <> [] -> ~ under src dst -> ~ under dst src ->
  lookup t (removelast dst) = Some KDir -> renamed t t' src dst -> wf t'.
Proof.
  intros W ND Ns Nd D1 D2 P [_ R]. destruct (R ND) as (R1 & R2 & R3). intros x k N E. destruct (under_dec src x) as [U|U]; [rewrite R2 in E by exact U; discriminate|].
  destruct (under_dec dst x) as [V|V].
  - destruct V as [r ->]. rewrite R1 in E. destruct r as [|a r].
    + rewrite app_nil_r in *. rewrite R3; [exact P| |apply parent_not_under; exact Nd]. intros S. apply D1. exact (under_trans _ _ _ S (parent_under dst)).
    + rewrite removelast_app by discriminate. rewrite R1. rewrite <- removelast_app by discriminate. apply (W _ k); [|exact E]. intros Q. apply app_eq_nil in Q. tauto.
  - rewrite R3 in E by assumption. rewrite R3; [exact (W x k N E)|..]; intros S; [apply U|apply V]; exact (under_trans _ _ _ S (parent_under x)).
Qed.
Lemma os_rename_iff t a b p q : wf t -> names a p -> names b q ->
  (renamable t a b p q -> exists t', os_rename t a b = Some t' /\ renamed t t' p q /\ wf t') /\
  (forall t', os_rename t a b = Some t' -> renamable t a b p q).
Proof.
  intros W Ha Hb. pose proof (names_components a p Ha) as Ca. pose proof (names_components b q Hb) as Cb.
  assert (Ka : forall k, named t a k -> lookup t p = Some k).
  { intros k (_ & p' & Hp' & K & _). apply names_components in Hp'. congruence. }
  assert (Kb : forall k, named t b k -> lookup t q = Some k).
  { intros k (_ & p' & Hp' & K & _). apply names_components in Hp'. congruence. }
  assert (Bn : q <> [] -> b <> []) by (intros N ->; apply N; rewrite <- Cb; reflexivity).
  split.
  - intros (Np & Nq & P & R). unfold os_rename. rewrite Ca, Cb, P.
    assert (D : ((exists c, named t a (KFile c)) \/ named t a KDir) /\ (p <> q -> ~ under p q /\ ~ under q p /\ forall x, below q x -> lookup t x = None)).
    { destruct R as [(c & A & R)|(A & R)]; (split; [eauto|]); intros ND; pose proof (Ka _ A) as Kp.
      - assert (Bq : forall x, below q x -> lookup t x = None).
        { apply wf_not_dir; [exact W|]. destruct R as [[R _]|[d R]]; [congruence|]. rewrite (Kb _ R). discriminate. }
        split; [|split; [|exact Bq]].
        + intros U. apply under_below in U. destruct U as [U|U]; [congruence|]. destruct (below_parent p q U) as [_ V]. apply under_below in V.
          destruct V as [V|V]; [rewrite V in P; congruence|]. rewrite (wf_above t p _ W V) in Kp; congruence.
        + intros U. apply under_below in U. destruct U as [U|U]; [congruence|]. rewrite (Bq p U) in Kp. discriminate.
      - destruct R as [R|(U & R)]; [congruence|]. assert (Bq : forall x, below q x -> lookup t x = None).
        { destruct R as [R|[_ R]]; [|exact R]. apply wf_not_dir; [exact W|congruence]. }
        split; [exact U|]. split; [|exact Bq]. intros V. apply under_below in V. destruct V as [V|V]; [congruence|]. rewrite (Bq p V) in Kp. discriminate. }
    destruct D as [_ D].
    assert (G : exists t', (if path_eqb p q then Some t else Some (map (fun e => (moved p q (fst e), snd e)) (without t q))) = Some t' /\ renamed t t' p q /\ wf t').
    { destruct (path_eqb p q) eqn:E.
      - apply path_eqb_eq in E. exists t. split; [reflexivity|]. split; [|exact W]. split; [reflexivity|intros X; congruence].
      - apply path_eqb_neq in E. destruct (D E) as (H1 & H2 & H3). eexists. split; [reflexivity|].
        pose proof (lookup_renamed t p q Np Nq H1 H2 H3) as Q. split; [exact Q|]. exact (renamed_wf t _ p q W E Np Nq H1 H2 P Q). }
    destruct p as [|p0 pr]; [congruence|]. set (p := p0 :: pr) in *. destruct q as [|q0 qr]; [congruence|]. set (q := q0 :: qr) in *.
    destruct R as [(c & A & R)|(A & R)]; pose proof (proj2 (stat_named _ _ _) A) as Sa; rewrite Sa.
    + destruct R as [(R & T)|(d & R)].
      * replace (stat t b) with (@None kind). { rewrite R. apply trailing_false in T. rewrite T. cbn [negb]. exact G. }
        symmetry. apply stat_none. intros k K. rewrite (Kb k K) in R. discriminate.
      * rewrite (proj2 (stat_named _ _ _) R). exact G.
    + destruct (stat t b) as [k|] eqn:Sb.
      * pose proof (proj1 (stat_named _ _ _) Sb) as Kk. apply Kb in Kk. destruct k as [d|].
        -- exfalso. pose proof (Ka _ A) as Kp. destruct R as [R|(_ & [R|[R _]])]; congruence.
        -- replace (path_eqb p q || _) with true; [exact G|]. symmetry. apply orb_true_iff. destruct R as [R|(U & R)]; [left; apply path_eqb_eq; exact R|right].
           apply andb_true_iff. split; [apply negb_true_iff, is_prefix_false; exact U|]. apply negb_true_iff, has_entries_false. destruct R as [R|[_ R]]; [congruence|exact R].
      * destruct (lookup t q) as [k|] eqn:Kq.
        -- exfalso. pose proof (proj1 (stat_none _ _) Sb) as Z. pose proof (Ka _ A) as Kp. assert (k = KDir) as ->.
           { destruct R as [R|(_ & [R|[R _]])]; congruence. }
           apply (Z KDir). split; [auto|]. exists q. auto.
        -- replace (negb (is_prefix p q)) with true; [exact G|]. symmetry. apply negb_true_iff, is_prefix_false. destruct R as [R|(U & _)]; [|exact U].
           exfalso. pose proof (Ka _ A) as Kp. congruence.
  - intros t' E. unfold os_rename in E. rewrite Ca, Cb in E. destruct (stat t a) as [k|] eqn:Sa; [|discriminate].
    pose proof (proj1 (stat_named _ _ _) Sa) as A. destruct (lookup t (removelast q)) as [[c|]|] eqn:P; [discriminate| |discriminate].
    destruct p as [|p0 pr]; [discriminate|]. set (p := p0 :: pr) in *. destruct q as [|q0 qr]; [discriminate|]. set (q := q0 :: qr) in *.
    split; [discriminate|]. split; [discriminate|]. split; [exact P|]. destruct k as [c|].
    + left. exists c. split; [exact A|]. destruct (stat t b) as [[d|]|] eqn:Sb; [|discriminate|].
      * right. exists d. apply stat_named. exact Sb.
      * left. destruct (lookup t q); [discriminate|]. split; [reflexivity|]. apply trailing_false. destruct (trailing_slash b); [discriminate|reflexivity].
    + right. split; [exact A|]. destruct (stat t b) as [[d|]|] eqn:Sb; [discriminate| |].
      * pose proof (Kb _ (proj1 (stat_named _ _ _) Sb)) as Kq.
        destruct (path_eqb p q) eqn:PQ; [left; apply path_eqb_eq; exact PQ|right]. cbn [orb] in E.
        destruct (is_prefix p q) eqn:U; [discriminate|]. destruct (has_entries t q) eqn:H; [discriminate|].
        split; [apply is_prefix_false; exact U|]. right. split; [exact Kq|]. apply has_entries_false. exact H.
      * right. destruct (lookup t q) eqn:Kq; [discriminate|]. destruct (is_prefix p q) eqn:U; [discriminate|]. split; [apply is_prefix_false; exact U|]. left. reflexivity.
Qed.

(** A traversal exists. *)
Lemma insert_ordered (x : path) l : StronglySorted (fun a b : path => (length b <= length a)%nat) l -> NoDup l -> ~ In x l ->
  exists l', (forall y, In y l' <-> y = x \/ In y l) /\ NoDup l' /\ StronglySorted (fun a b : path => (length b <= length a)%nat) l'.
Proof.
  induction l as [|y l IH]; intros S D N.
  - exists [x]. split; [cbn; intuition congruence|]. split; [constructor; [intros []|constructor]|]. constructor; constructor.
  - inversion S as [|? ? S1 F]. subst. inversion D as [|? ? D1 D2]. subst. destruct (Nat.leb_spec (length y) (length x)) as [H|H].
    + exists (x :: y :: l). split; [cbn; intuition congruence|]. split; [constructor; assumption|]. constructor; [exact S|]. constructor; [exact H|].
      rewrite Forall_forall in *. intros z Z. specialize (F z Z). cbn in F. lia.
    + destruct (IH S1 D2) as (l' & A & B & E); [intros I; apply N; right; exact I|]. exists (y :: l'). split; [|split].
      * intros z. cbn. rewrite A. intuition congruence.
      * constructor; [|exact B]. rewrite A. intros [->|I]; [apply N; left; reflexivity|contradiction].
      * constructor; [exact E|]. rewrite Forall_forall in *. intros z Z. apply A in Z. destruct Z as [->|Z]; [lia|exact (F z Z)].
Qed.
Lemma ordered_exists (l : list path) : exists l', (forall y, In y l' <-> In y l) /\ NoDup l' /\ StronglySorted (fun a b : path => (length b <= length a)%nat) l'.
Proof.
  induction l as [|x l (l' & A & B & E)]; [exists []; split; [tauto|split; constructor]|].
  destruct (in_dec (list_eq_dec (list_eq_dec Byte.byte_eq_dec)) x l') as [I|I].
  - exists l'. split; [|auto]. intros y. rewrite A. cbn. split; [auto|]. intros [<-|H]; [apply A; exact I|exact H].
  - destruct (insert_ordered x l' E B I) as (l2 & A2 & B2 & E2). exists l2. split; [|auto]. intros y. rewrite A2, A. cbn. intuition congruence.
Qed.
Lemma sorted_after (l : list path) before q after : StronglySorted (fun a b : path => (length b <= length a)%nat) l -> l = before ++ q :: after ->
  forall r, In r after -> (length r <= length q)%nat.
Proof.
  revert l. induction before as [|x before IH]; intros l S -> r I; cbn [app] in S; inversion S as [|? ? S1 F]; subst.
  - rewrite Forall_forall in F. exact (F r I).
  - exact (IH _ S1 eq_refl r I).
Qed.
Lemma traversal_exists t p : exists order, traversal t p order.
Proof.
  destruct (ordered_exists (filter (is_prefix p) ([] :: filter (fun q => negb (path_eqb q [])) (map fst t)))) as (l & A & D & S). exists l. split.
  - intros q. rewrite A, filter_In, is_prefix_under. cbn [In]. rewrite filter_In, in_map_iff. split.
    + intros [[<-|[([x k] & <- & I) N]] U]; split; try exact U; [discriminate|]. cbn [fst] in *. apply negb_true_iff, path_eqb_neq in N.
      rewrite lookup_nonroot by exact N. apply lookup_in_some. eauto.
    + intros [U L]. split; [|exact U]. destruct q as [|b q]; [left; reflexivity|right]. rewrite lookup_nonroot in L by discriminate. apply lookup_in_some in L.
      destruct L as [k I]. split; [exists (b :: q, k); auto|]. apply negb_true_iff, path_eqb_neq. discriminate.
  - intros before q after E r I [x ->]. pose proof (sorted_after l before q after S E _ I) as L. rewrite app_length in L.
    assert (x = []) as -> by (destruct x; [reflexivity|cbn in L; lia]). rewrite app_nil_r in I. rewrite E in D. apply NoDup_remove_2 in D. apply D.
    apply in_or_app. right. exact I.
Qed.
