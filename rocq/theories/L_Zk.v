(** Lemmas about observers who question the hash function: for every tape the games are one experiment over the prover's draws. *)
From Verif Require Import Base M_BigNum S_BigNum L_BigNum L_BigNumP L_Mod M_Num S_Num L_Num S_Hide L_Hide S_Oracle L_Oracle S_Zk.

Definition in_range (bs ds : list Z) : Prop := Forall2 (fun b d => 0 <= d < b) bs ds.

Lemma play_followed {A B} (p : prover A) (f : A -> prover B) : forall t tape,
  play (followed_by p f) t tape = match play p t tape with Some (a, t') => play (f a) t' (skipn (length t' - length t) tape) | None => None end.
Proof.
  induction p as [a|x next IH]; intros t tape; cbn [followed_by play].
  - rewrite Nat.sub_diag. reflexivity.
  - destruct (answer_to t x) as [c|]; [apply IH|]. destruct tape as [|c rest]; [reflexivity|]. rewrite IH.
    destruct (play (next c) ((x, c) :: t) rest) as [[a t']|] eqn:E; [|reflexivity].
    assert (G : forall (q : prover A) t1 tp a1 t2, play q t1 tp = Some (a1, t2) -> (length t1 <= length t2)%nat).
    { clear. induction q as [a|x next IH]; intros t1 tp a1 t2 H; cbn [play] in H; [injection H as _ <-; lia|].
      destruct (answer_to t1 x); [eapply IH; exact H|]. destruct tp as [|c r]; [discriminate|]. apply IH in H. cbn [length] in H. lia. }
    apply G in E. cbn [length] in *. replace (length t' - length t)%nat with (S (length t' - S (length t))) by lia. reflexivity.
Qed.

(** Counting the tape first. *)
Fixpoint tape_sum (n : nat) (M : Z) (f : list Z -> Z) : Z := match n with O => f [] | S m => zsum (Z.to_nat M) (fun c => tape_sum m M (fun r => f (c :: r))) end.
Lemma count_tape M n bounds test : count (repeat M n ++ bounds) test = tape_sum n M (fun tape => count bounds (fun ds => test (tape ++ ds))).
Proof. revert test. induction n as [|n IH]; intros test; cbn [repeat app count tape_sum]; [reflexivity|]. apply zsum_ext. intros d _. rewrite IH. reflexivity. Qed.
Lemma tape_sum_ext M n : forall f g, (forall tape, length tape = n -> Forall (fun c => 0 <= c < M) tape -> f tape = g tape) -> tape_sum n M f = tape_sum n M g.
Proof.
  induction n as [|n IH]; intros f g H; cbn [tape_sum]; [apply H; [reflexivity|constructor]|]. apply zsum_ext. intros d Hd. apply IH. intros tape Hl Hf. apply H; [cbn [length]; lia|]. constructor; [lia|exact Hf].
Qed.
Lemma tape_sum_bound M n : 0 <= M -> forall f g c s, 0 <= s -> (forall tape, length tape = n -> Forall (fun c => 0 <= c < M) tape -> s * Z.abs (f tape) <= c + s * g tape) ->
  s * Z.abs (tape_sum n M f) <= c * M ^ Z.of_nat n + s * tape_sum n M g.
Proof.
  intros HM. induction n as [|n IH]; intros f g c s Hs H; cbn [tape_sum].
  - specialize (H [] eq_refl ltac:(constructor)). cbn [Z.of_nat]. rewrite Z.pow_0_r. lia.
  - assert (K : forall d, 0 <= d < Z.of_nat (Z.to_nat M) -> s * Z.abs (tape_sum n M (fun r => f (d :: r))) <= c * M ^ Z.of_nat n + s * tape_sum n M (fun r => g (d :: r))).
    { intros d Hd. apply IH; [exact Hs|]. intros tape Hl Hf. apply H; [cbn [length]; lia|]. constructor; [lia|exact Hf]. }
    replace (Z.of_nat (S n)) with (Z.of_nat n + 1) by lia. rewrite Z.pow_add_r, Z.pow_1_r by lia.
    set (F := fun d => tape_sum n M (fun r => f (d :: r))) in *. set (G := fun d => tape_sum n M (fun r => g (d :: r))) in *. set (w := c * M ^ Z.of_nat n) in *.
    replace (c * (M ^ Z.of_nat n * M)) with (Z.of_nat (Z.to_nat M) * w) by (unfold w; rewrite Z2Nat.id by lia; ring).
    change (s * Z.abs (zsum (Z.to_nat M) F) <= Z.of_nat (Z.to_nat M) * w + s * zsum (Z.to_nat M) G). change (forall d, 0 <= d < Z.of_nat (Z.to_nat M) -> s * Z.abs (F d) <= w + s * G d) in K. clearbody F G w. clear - K Hs.
    induction (Z.to_nat M) as [|m IHm]; cbn [zsum]; [cbn; lia|]. specialize (IHm ltac:(intros; apply K; lia)). pose proof (K (Z.of_nat m) ltac:(lia)) as Km.
    assert (T : s * Z.abs (zsum m F + F (Z.of_nat m)) <= s * (Z.abs (zsum m F) + Z.abs (F (Z.of_nat m)))) by (apply Z.mul_le_mono_nonneg_l; [exact Hs|apply Z.abs_triangle]).
    rewrite Nat2Z.inj_succ, Z.mul_succ_l, Z.mul_add_distr_l. rewrite Z.mul_add_distr_l in T. lia.
Qed.
Lemma tape_sum_sub M n : forall f g, tape_sum n M f - tape_sum n M g = tape_sum n M (fun t => f t - g t).
Proof. induction n as [|n IH]; intros f g; cbn [tape_sum]; [reflexivity|]. rewrite zsum_sub. apply zsum_ext. intros d _. apply IH. Qed.
Lemma tape_sum_add M n f g : tape_sum n M f + tape_sum n M g = tape_sum n M (fun t => f t + g t).
Proof.
  replace (tape_sum n M f + tape_sum n M g) with (tape_sum n M f - (tape_sum n M (fun _ => 0) - tape_sum n M g)).
  - rewrite !tape_sum_sub. apply tape_sum_ext. intros. lia.
  - assert (E : tape_sum n M (fun _ => 0) = 0); [|lia]. clear. induction n as [|n IH]; cbn [tape_sum]; [reflexivity|]. rewrite IH. induction (Z.to_nat M) as [|m H]; cbn [zsum]; lia.
Qed.
Lemma tuples_tape M n bounds : tuples (repeat M n ++ bounds) = M ^ Z.of_nat n * tuples bounds.
Proof.
  induction n as [|n IH]; cbn [repeat app]; [cbn [Z.of_nat]; rewrite Z.pow_0_r; lia|]. rewrite tuples_cons, IH.
  replace (Z.of_nat (S n)) with (Z.of_nat n + 1) by lia. rewrite Z.pow_add_r, Z.pow_1_r by lia. ring.
Qed.
Lemma firstn_tape {A} (a b : list A) : firstn (length a) (a ++ b) = a.
Proof. rewrite firstn_app, Nat.sub_diag, firstn_all. cbn [firstn]. apply app_nil_r. Qed.
Lemma skipn_tape {A} (a b : list A) : skipn (length a) (a ++ b) = b.
Proof. rewrite skipn_app, Nat.sub_diag, skipn_all. reflexivity. Qed.

Lemma count_sub_or bs (a b e : list Z -> bool) : (forall ds, length ds = length bs -> in_range bs ds -> e ds = true -> a ds = true \/ b ds = true) -> Forall (fun b => 0 <= b) bs ->
  count bs e <= count bs a + count bs b.
Proof.
  intros H N. revert a b e H. induction N as [|x bs Hx N IH]; intros a b e H; cbn [count].
  - specialize (H [] eq_refl ltac:(constructor)). destruct (e []); [destruct (H eq_refl) as [-> | ->]; destruct (a []), (b []); lia|destruct (a []), (b []); lia].
  - assert (E : forall f g, zsum (Z.to_nat x) f + zsum (Z.to_nat x) g = zsum (Z.to_nat x) (fun d => f d + g d)).
    { clear. intros f g. induction (Z.to_nat x) as [|n IHn]; cbn [zsum]; lia. }
    rewrite E. apply zsum_le. intros d Hd. apply IH. intros ds Hl Hr. apply H; [cbn [length]; lia|]. constructor; [lia|exact Hr].
Qed.

Lemma games_close {A} k num s bounds bad (run : (bytes -> bytes) -> list Z -> outcome A) query sim tree :
  0 <= k -> 0 <= s -> 0 <= num -> Forall (fun b => 0 <= b) bounds ->
  (forall f, (forall x, 0 <= f x < 2 ^ k) -> exists sha512, forall x : bytes, random_oracle 512 sha512 x (2 ^ k) = Ok (f x)) ->
  (forall ds, in_range bounds ds -> asks (tree ds) 1 /\ is_code k (fun sha512 => run sha512 ds) (tree ds)) ->
  (forall ds c, in_range bounds ds -> 0 <= c < 2 ^ k -> bad c ds = false -> one_question query (tree ds) c) ->
  (forall sha512 c, oracle_says sha512 k c -> within_distance_but num s bounds (bad c) (run sha512) (sim c)) ->
  shows_nothing k num s bounds bad run query sim.
Proof.
  intros Hk Hs Hn0 Hb Hsha Hcode Hone Hdist. exists tree. split; [exact Hcode|]. split; [exact Hone|]. intros o n all yes_real yes_simulated guessed wrong.
  assert (P : 0 < 2 ^ k) by (apply Z.pow_pos_nonneg; lia). assert (Ps : 0 < 2 ^ s) by (apply Z.pow_pos_nonneg; lia).
  unfold yes_real, yes_simulated, guessed, wrong, all. rewrite tuples_tape, !count_tape, tape_sum_sub.
  match goal with |- context [2 * tape_sum n (2 ^ k) ?F] => replace (2 * tape_sum n (2 ^ k) F) with (tape_sum n (2 ^ k) F + tape_sum n (2 ^ k) F) by lia end.
  rewrite !tape_sum_add. replace (num * ((2 ^ k) ^ Z.of_nat n * tuples bounds)) with (num * tuples bounds * (2 ^ k) ^ Z.of_nat n) by ring.
  apply tape_sum_bound; [lia|lia|]. intros tape Hl Ht.
  rewrite (count_ext bounds (fun ds => sees_real o (tree (skipn n (tape ++ ds))) (firstn n (tape ++ ds))) (fun ds => sees_real o (tree ds) tape))
    by (intros; subst n; rewrite firstn_tape, skipn_tape; reflexivity).
  rewrite (count_ext bounds (fun ds => sees_simulated o query (fun c => sim c (skipn n (tape ++ ds))) (firstn n (tape ++ ds))) (fun ds => sees_simulated o query (fun c => sim c ds) tape))
    by (intros; subst n; rewrite firstn_tape, skipn_tape; reflexivity).
  rewrite (count_ext bounds (fun ds => asked_before o (tree (skipn n (tape ++ ds))) (firstn n (tape ++ ds))) (fun ds => asked_before o (tree ds) tape))
    by (intros; subst n; rewrite firstn_tape, skipn_tape; reflexivity).
  rewrite (count_ext bounds (fun ds => goes_wrong o (fun c => bad c (skipn n (tape ++ ds))) (firstn n (tape ++ ds))) (fun ds => goes_wrong o (fun c => bad c ds) tape))
    by (intros; subst n; rewrite firstn_tape, skipn_tape; reflexivity).
  set (g := count bounds (fun ds => asked_before o (tree ds) tape)).
  pose proof (count_bound bounds (fun ds => asked_before o (tree ds) tape) Hb) as Hg0. fold g in Hg0.
  pose proof (tuples_nonneg bounds Hb) as Ht0.
  unfold sees_real, sees_simulated, asked_before, goes_wrong in *.
  destruct (play o [] tape) as [[look t]|] eqn:Eo.
  2:{ rewrite (count_ext bounds (fun ds => says_yes (play (followed_by o (fun look => followed_by (tree ds) look)) [] tape)) (fun _ => false)).
      - rewrite Z.sub_diag. cbn [Z.abs]. rewrite (count_none bounds (fun _ => false)) by reflexivity. nia.
      - intros ds _ _. rewrite play_followed, Eo. reflexivity. }
  set (c := hd 0 (skipn (length t) tape)) in *. set (b := count bounds (fun ds => bad c ds)).
  assert (Hc : 0 <= c < 2 ^ k).
  { unfold c. destruct (skipn (length t) tape) as [|d rest] eqn:Er; cbn [hd]; [lia|].
    assert (I : In d tape) by (rewrite <- (firstn_skipn (length t) tape), Er; apply in_or_app; right; left; reflexivity). rewrite Forall_forall in Ht. exact (Ht d I). }
  pose proof (count_bound bounds (fun ds => bad c ds) Hb) as Hb0. fold b in Hb0.
  assert (C2 : count bounds (fun ds => bad c ds || (match tree ds with Ask x _ => match answer_to t x with Some _ => true | None => false end | Give _ => false end)) <= b + g).
  { apply count_sub_or; [|exact Hb]. intros ds _ _ H. apply orb_true_iff in H. exact H. }
  set (ub := fun ds => bad c ds || (match tree ds with Ask x _ => match answer_to t x with Some _ => true | None => false end | Give _ => false end)) in *.
  destruct (skipn (length t) tape) as [|c' rest] eqn:Er.
  - assert (Real : forall ds, length ds = length bounds -> in_range bounds ds -> ub ds = false -> says_yes (play (followed_by o (fun look => followed_by (tree ds) look)) [] tape) = false).
    { intros ds _ Hr H. apply orb_false_iff in H. destruct H as [Hbad Hask]. rewrite play_followed, Eo. cbn [length]. rewrite Nat.sub_0_r.
      destruct (Hone ds c Hr Hc Hbad) as (x & next & a & Etree & _). rewrite Etree in Hask |- *. cbn [followed_by play]. destruct (answer_to t x); [discriminate|]. rewrite Er. reflexivity. }
    pose proof (count_differ bounds _ _ _ Real) as C1. cbv beta in C1.
    set (R := Z.abs (count bounds (fun ds => says_yes _) - _)) in *. clearbody R. nia.
  - cbn [hd] in c. subst c. rename c' into c.
    destruct (Hsha (fun _ => c) (fun _ => Hc)) as (sha & Esha). set (D := fun r => says_yes (play (look r) (decree query r c t) rest)). specialize (Hdist sha c Esha D).
    assert (Real : forall ds, length ds = length bounds -> in_range bounds ds -> ub ds = false -> says_yes (play (followed_by o (fun look => followed_by (tree ds) look)) [] tape) = D (run sha ds)).
    { intros ds _ Hr H. apply orb_false_iff in H. destruct H as [Hbad Hask]. rewrite play_followed, Eo. cbn [length]. rewrite Nat.sub_0_r.
      pose proof (proj2 (Hcode ds Hr) sha) as Q. destruct (Hone ds c Hr Hc Hbad) as (x & next & a & Etree & Ea & Eq). rewrite Etree in Q, Hask |- *. cbn [followed_by play]. destruct (answer_to t x); [discriminate|]. rewrite Er.
      cbn [answered] in Q. rewrite Esha in Q. cbn [bind] in Q. rewrite Ea in Q |- *. cbn [answered followed_by] in Q |- *. rewrite <- Q. unfold D, decree. rewrite Eq. reflexivity. }
    pose proof (count_differ bounds _ _ _ Real) as C1. cbv beta in C1. change (count bounds (bad c)) with b in Hdist.
    change (fun ds => says_yes (play (look (sim c ds)) (decree query (sim c ds) c t) rest)) with (fun ds => D (sim c ds)).
    set (R := count bounds (fun ds => says_yes _)) in *. set (X := count bounds (fun ds => D (run sha ds))) in *. set (Y := count bounds (fun ds => D (sim c ds))) in *. clearbody R X Y.
    assert (T : Z.abs (R - Y) <= Z.abs (R - X) + Z.abs (X - Y)) by lia. nia.
Qed.

(** ** Code as decision trees *)
Definition as_tree {A} (k : Z) (q : nat) (run : (bytes -> bytes) -> outcome A) : Type := {tree : prover (outcome A) | asks tree q /\ is_code k run tree}.
Definition code_const {A} k q (r : outcome A) : as_tree k q (fun _ => r).
Proof. exists (Give r). split; [exact I|intros sha; reflexivity]. Defined.
Definition code_bind {A B} k q (e : outcome A) (f : (bytes -> bytes) -> A -> outcome B) : (forall a, e = Ok a -> as_tree k q (fun sha => f sha a)) -> as_tree k q (fun sha => let* a := e in f sha a).
Proof. intros H. destruct e as [a|c| | |]; [exact (H a eq_refl)|..]; cbn [bind]; apply code_const. Defined.
Definition code_oracle k q x : as_tree k (S q) (fun sha => random_oracle 512 sha x (2 ^ k)).
Proof.
  exists (Ask x (fun c => Give (Ok c))). split; [cbn [asks]; intros; exact I|]. intros sha. cbn [answered]. destruct (random_oracle 512 sha x (2 ^ k)); reflexivity.
Defined.
(** What is sent after an answer does not depend on the hash function any more. *)
Fixpoint after {A B} (p : prover (outcome A)) (f : A -> outcome B) : prover (outcome B) :=
  match p with Give r => Give (let* a := r in f a) | Ask x next => Ask x (fun c => after (next c) f) end.
Definition code_after {A B} k q (e : (bytes -> bytes) -> outcome A) (f : A -> outcome B) : as_tree k q e -> as_tree k q (fun sha => let* a := e sha in f a).
Proof.
  intros (tree & Ha & Hc). exists (after tree f). split.
  - clear Hc. revert q Ha. induction tree as [r|x next IH]; intros q Ha; cbn [after asks] in *; [exact I|]. destruct q as [|q]; [contradiction|]. intros c. apply IH, Ha.
  - intros sha. rewrite <- (Hc sha). clear. induction tree as [r|x next IH]; cbn [after answered]; [reflexivity|]. destruct (random_oracle 512 sha x (2 ^ k)); cbn [bind]; [apply IH|reflexivity..].
Defined.
Ltac code_step :=
  match goal with
  | |- as_tree _ _ (fun _ => ?r) => apply code_const
  | |- as_tree _ _ (fun sha => bind ?e _) => apply code_bind; intros
  | |- as_tree _ _ (fun sha => if ?b then _ else _) => destruct b eqn:?
  | |- as_tree _ _ (fun sha => match ?p with pair _ _ => _ end) => destruct p
  end.

(** One question, and the verifier's: when what is sent contains the answer to its own question whatever the hash function is. *)
Lemma accepted_one_question {A} k (query : A -> outcome bytes) (chal : A -> Z) (run : (bytes -> bytes) -> outcome A) tree c :
  0 < k -> 0 <= c < 2 ^ k -> (forall f, (forall x, 0 <= f x < 2 ^ k) -> exists sha512, forall x : bytes, random_oracle 512 sha512 x (2 ^ k) = Ok (f x)) ->
  asks tree 1 -> is_code k run tree ->
  (forall sha512 y, (forall x, exists d, random_oracle 512 sha512 x (2 ^ k) = Ok d) -> random_oracle 512 sha512 y (2 ^ k) = Ok c ->
     (forall z next, tree = Ask z next -> z = y) -> exists a x, run sha512 = Ok a /\ query a = Ok x /\ random_oracle 512 sha512 x (2 ^ k) = Ok (chal a)) ->
  (forall r, tree <> Give r) ->
  one_question query tree c.
Proof.
  intros Hk Hcr Hsha Ha Hc Hrun Hng. assert (P : 1 < 2 ^ k) by (apply Z.pow_gt_1; lia).
  destruct tree as [r|x next]; [exfalso; exact (Hng r eq_refl)|]. cbn [asks] in Ha.
  set (f := fun y => if bytes_eqb y x then c else if c =? 0 then 1 else 0).
  assert (fx : f x = c) by (unfold f; rewrite bytes_eqb_refl; reflexivity).
  destruct (Hsha f) as (s & E). { intros y. unfold f. destruct (bytes_eqb y x); [lia|]. destruct (c =? 0); lia. }
  assert (Hx : forall z nx, Ask x next = Ask z nx -> z = x) by (intros z nx Heq; injection Heq as -> _; reflexivity).
  destruct (Hrun s x ltac:(intros y; eexists; apply E) ltac:(rewrite E, fx; reflexivity) Hx) as (a & y & R & Q & Ca).
  pose proof (Hc s) as H. cbn [answered] in H. rewrite E in H. cbn [bind] in H. rewrite fx in H. specialize (Ha c). destruct (next c) as [r|? ?] eqn:En; [|contradiction]. cbn [answered] in H.
  exists x, next, a. split; [reflexivity|]. split; [congruence|]. rewrite Q. f_equal.
  (* the same proof is sent when the function has another answer elsewhere *)
  destruct (bytes_eqb y x) eqn:Ey; [apply bytes_eqb_eq; exact Ey|]. exfalso.
  destruct (Hsha (fun _ => c)) as (s2 & E2). { intros z. exact Hcr. }
  destruct (Hrun s2 x ltac:(intros z; eexists; apply E2) (E2 x) Hx) as (a2 & y2 & R2 & Q2 & C2). pose proof (Hc s2) as H2. cbn [answered] in H2. rewrite E2 in H2. cbn [bind] in H2. rewrite En in H2. cbn [answered] in H2.
  assert (a2 = a) by congruence. subst a2. rewrite E2 in C2. rewrite E in Ca. unfold f in Ca. rewrite Ey in Ca. destruct (Z.eqb_spec c 0); congruence.
Qed.
(** A tree that asks nothing sends the same whatever the hash function is. *)
Lemma not_silent {A} k (query : A -> outcome bytes) (chal : A -> Z) (run : (bytes -> bytes) -> outcome A) tree :
  0 < k -> (forall f, (forall x, 0 <= f x < 2 ^ k) -> exists sha512, forall x : bytes, random_oracle 512 sha512 x (2 ^ k) = Ok (f x)) -> is_code k run tree ->
  (forall sha512, (forall x, exists c, random_oracle 512 sha512 x (2 ^ k) = Ok c) -> exists a, run sha512 = Ok a /\ exists x, random_oracle 512 sha512 x (2 ^ k) = Ok (chal a)) ->
  forall r, tree <> Give r.
Proof.
  intros Hk Hsha Hc Hrun r ->. assert (P : 1 < 2 ^ k) by (apply Z.pow_gt_1; lia).
  destruct (Hsha (fun _ => 0) ltac:(intros; lia)) as (s0 & E0). destruct (Hsha (fun _ => 1) ltac:(intros; lia)) as (s1 & E1).
  destruct (Hrun s0 ltac:(intros y; eexists; apply E0)) as (a & R0 & y0 & C0). destruct (Hrun s1 ltac:(intros z; eexists; apply E1)) as (a1 & R1 & y1 & C1).
  pose proof (Hc s0) as H0. pose proof (Hc s1) as H1. cbn [answered] in H0, H1. assert (a1 = a) by congruence. subst a1. rewrite E0 in C0. rewrite E1 in C1. congruence.
Qed.
(** Code that is given by its question and what it does with the answer, apart from draws with which it fails before it asks. *)
Lemma explicit_close {A} k num s bounds (bad : list Z -> bool) (run : (bytes -> bytes) -> list Z -> outcome A) query sim (x : list Z -> bytes) (fin : list Z -> Z -> outcome A) (r0 : outcome A) :
  0 <= k -> 0 <= s -> 0 <= num -> Forall (fun b => 0 <= b) bounds ->
  (forall f, (forall x, 0 <= f x < 2 ^ k) -> exists sha512, forall x : bytes, random_oracle 512 sha512 x (2 ^ k) = Ok (f x)) ->
  (forall ds, in_range bounds ds -> bad ds = true -> forall sha, run sha ds = r0) ->
  (forall ds, in_range bounds ds -> bad ds = false -> (forall sha, run sha ds = let* c := random_oracle 512 sha (x ds) (2 ^ k) in fin ds c) /\
     forall c, 0 <= c < 2 ^ k -> exists a, fin ds c = Ok a /\ query a = Ok (x ds)) ->
  (forall sha512 c, oracle_says sha512 k c -> within_distance num s bounds (run sha512) (sim c)) ->
  shows_nothing k num s bounds (fun _ => bad) run query sim.
Proof.
  intros Hk Hs Hn Hb Hsha H0 Hx Hd. apply (games_close k num s bounds (fun _ => bad) run query sim (fun ds => if bad ds then Give r0 else Ask (x ds) (fun c => Give (fin ds c)))); try assumption.
  - intros ds Hr. destruct (bad ds) eqn:Eb; [split; [exact I|]; intros sha; cbn [answered]; rewrite (H0 ds Hr Eb sha); reflexivity|].
    split; [cbn [asks]; intros; exact I|]. intros sha. cbn [answered]. rewrite (proj1 (Hx ds Hr Eb) sha). reflexivity.
  - intros ds c Hr Hc Eb. rewrite Eb. destruct (proj2 (Hx ds Hr Eb) c Hc) as (a & Ea & Eq). exists (x ds), (fun c => Give (fin ds c)), a. split; [reflexivity|]. split; [rewrite Ea; reflexivity|exact Eq].
  - intros sha c Hc test. specialize (Hd sha c Hc test). pose proof (count_bound bounds bad Hb). assert (0 < 2 ^ s) by (apply Z.pow_pos_nonneg; lia). nia.
Qed.

(** ** How often an observer guesses the question *)
Definition question {A} (p : prover A) : option bytes := match p with Ask x _ => Some x | Give _ => None end.
Definition asks_about {A} (p : prover A) (x : bytes) : bool := match question p with Some y => bytes_eqb x y | None => false end.
Lemma play_answers {A} (p : prover A) : forall q t tape a t', asks p q -> play p t tape = Some (a, t') -> (length t' <= q + length t)%nat.
Proof.
  induction p as [a|x next IH]; intros q t tape a' t' Ha H; cbn [play] in H; [injection H as _ <-; lia|]. cbn [asks] in Ha. destruct q as [|q]; [contradiction|].
  destruct (answer_to t x) as [c|]; [specialize (IH c q t tape a' t' (Ha c) H); lia|]. destruct tape as [|c rest]; [discriminate|]. specialize (IH c q _ _ _ _ (Ha c) H). cbn [length] in IH. lia.
Qed.
Lemma tape_sum_le M n G f : 0 <= M -> (forall tape, f tape <= G) -> tape_sum n M f <= G * M ^ Z.of_nat n.
Proof.
  intros HM. revert f. induction n as [|n IH]; intros f H; cbn [tape_sum]; [cbn [Z.of_nat]; rewrite Z.pow_0_r; specialize (H []); lia|].
  replace (Z.of_nat (S n)) with (Z.of_nat n + 1) by lia. rewrite Z.pow_add_r, Z.pow_1_r by lia. set (w := G * M ^ Z.of_nat n) in *.
  replace (G * (M ^ Z.of_nat n * M)) with (Z.of_nat (Z.to_nat M) * w) by (unfold w; rewrite Z2Nat.id by lia; ring).
  assert (K : forall d, tape_sum n M (fun r => f (d :: r)) <= w) by (intros d; apply IH; intros; apply H).
  set (F := fun d => tape_sum n M (fun r => f (d :: r))) in *. change (zsum (Z.to_nat M) F <= Z.of_nat (Z.to_nat M) * w). change (forall d, F d <= w) in K. clearbody F w. clear - K.
  induction (Z.to_nat M) as [|m IHm]; cbn [zsum]; [lia|]. specialize (K (Z.of_nat m)). lia.
Qed.
Lemma guess_bound {A} k bounds (tree : list Z -> prover (outcome A)) G (o : observer A) q n : 0 <= k -> Forall (fun b => 0 <= b) bounds -> 0 <= G ->
  (forall x, count bounds (fun ds => asks_about (tree ds) x) <= G) -> asks o q ->
  count (repeat (2 ^ k) n ++ bounds) (fun v => asked_before o (tree (skipn n v)) (firstn n v)) <= Z.of_nat q * G * (2 ^ k) ^ Z.of_nat n.
Proof.
  intros Hk Hb HG H Ha. assert (P : 0 < 2 ^ k) by (apply Z.pow_pos_nonneg; lia). rewrite count_tape.
  rewrite (tape_sum_ext _ _ _ (fun tape => count bounds (fun ds => asked_before o (tree ds) tape))).
  2:{ intros tape Hl _. apply count_ext. intros ds _ _. subst n. rewrite firstn_tape, skipn_tape. reflexivity. }
  apply tape_sum_le; [lia|]. intros tape. unfold asked_before. destruct (play o [] tape) as [[look t]|] eqn:E; [|rewrite (count_none bounds (fun _ => false)) by reflexivity; nia].
  pose proof (play_answers o q [] tape look t Ha E) as Hq. cbn [length] in Hq. rewrite Nat.add_0_r in Hq. assert (K : count bounds (fun ds => match tree ds with Ask x _ => match answer_to t x with Some _ => true | None => false end | Give _ => false end) <= Z.of_nat (length t) * G); [|nia].
  clear E Hq. induction t as [|[y c] t IH]; [rewrite count_none; [cbn [length Z.of_nat]; lia|intros ds; destruct (tree ds); reflexivity]|].
  assert (Q : count bounds (fun ds => match tree ds with Ask x _ => match answer_to ((y, c) :: t) x with Some _ => true | None => false end | Give _ => false end) <=
              count bounds (fun ds => asks_about (tree ds) y) + count bounds (fun ds => match tree ds with Ask x _ => match answer_to t x with Some _ => true | None => false end | Give _ => false end)).
  { apply count_sub_or; [|exact Hb]. intros ds _ _ X. unfold asks_about, question. destruct (tree ds) as [r|x next]; [discriminate|]. cbn [answer_to] in X. destruct (bytes_eqb y x); [left; reflexivity|right; exact X]. }
  specialize (H y). cbn [length]. rewrite Nat2Z.inj_succ. lia.
Qed.

(** Hits that all agree modulo ord are at most one in ord. *)
Lemma sparse_hits (f : Z -> Z) ord : 0 < ord -> (forall i, f i = 0 \/ f i = 1) -> (forall i j, 0 <= i -> 0 <= j -> f i = 1 -> f j = 1 -> (ord | i - j)) ->
  forall N, zsum N f <= (Z.of_nat N + ord - 1) / ord.
Proof.
  intros Ho F01 H. intros N. induction N as [N IH] using (well_founded_induction lt_wf). destruct N as [|m]; [cbn [zsum]; apply Z.div_pos; lia|].
  cbn [zsum]. destruct (F01 (Z.of_nat m)) as [E|E]; rewrite E.
  - specialize (IH m ltac:(lia)). assert ((Z.of_nat m + ord - 1) / ord <= (Z.of_nat (S m) + ord - 1) / ord) by (apply Z.div_le_mono; lia). lia.
  - assert (Z0 : forall a c, (forall i, Z.of_nat a <= i < Z.of_nat (a + c) -> f i = 0) -> zsum (a + c) f = zsum a f).
    { clear. intros a c. induction c as [|c IHc]; intros H; [rewrite Nat.add_0_r; reflexivity|]. rewrite Nat.add_succ_r. cbn [zsum]. rewrite IHc by (intros; apply H; lia). rewrite H by lia. lia. }
    set (a := Z.to_nat (Z.of_nat m - ord + 1)).
    assert (Em : zsum m f = zsum a f).
    { replace m with (a + (m - a))%nat by (unfold a; lia). apply Z0. intros i Hi. destruct (F01 i) as [X|X]; [exact X|]. exfalso.
      pose proof (H (Z.of_nat m) i ltac:(lia) ltac:(lia) E X) as Hw. unfold a in Hi. apply Z.divide_pos_le in Hw; lia. }
    rewrite Em. specialize (IH a ltac:(unfold a; lia)). replace (Z.of_nat (S m) + ord - 1) with (Z.of_nat m + 1 * ord) by lia. rewrite Z.div_add by lia.
    assert ((Z.of_nat a + ord - 1) / ord <= Z.of_nat m / ord); [|lia]. unfold a. destruct (Z_le_dec 0 (Z.of_nat m - ord + 1)); [apply Z.div_le_mono; lia|].
    (replace (Z.of_nat (Z.to_nat (Z.of_nat m - ord + 1))) with 0 by lia). rewrite (Z.div_small (0 + ord - 1)) by lia. apply Z.div_pos; lia.
Qed.
(** One draw decides: for all other draws fixed, the hits agree modulo ord. *)
Lemma sparse_count pre B post ord test : 0 < ord -> 0 <= B -> Forall (fun b => 0 <= b) pre -> Forall (fun b => 0 <= b) post ->
  (forall a i j c, length a = length pre -> in_range pre a -> in_range post c -> 0 <= i < B -> 0 <= j < B -> test (a ++ i :: c) = true -> test (a ++ j :: c) = true -> (ord | i - j)) ->
  count (pre ++ B :: post) test <= tuples pre * tuples post * ((B + ord - 1) / ord).
Proof.
  intros Ho HB Hpre Hpost. assert (Q0 : 0 <= (B + ord - 1) / ord) by (apply Z.div_pos; lia). revert test. induction Hpre as [|b pre Hb Hpre IH]; intros test H.
  - cbn [app count]. change (tuples []) with 1. rewrite Z.mul_1_l. revert test H.
    assert (G : forall post test, Forall (fun b => 0 <= b) post -> (forall i j c, in_range post c -> 0 <= i < B -> 0 <= j < B -> test (i :: c) = true -> test (j :: c) = true -> (ord | i - j)) ->
      zsum (Z.to_nat B) (fun d => count post (fun ds => test (d :: ds))) <= tuples post * ((B + ord - 1) / ord)).
    { clear post Hpost. intros post test Hpost. revert test. induction Hpost as [|b post Hb Hpost IHp]; intros test H.
      - cbn [count]. change (tuples []) with 1. rewrite Z.mul_1_l. replace B with (Z.of_nat (Z.to_nat B)) at 2 by lia.
        set (f := fun d => if (0 <=? d) && (d <? B) && test [d] then 1 else 0).
        rewrite (zsum_ext _ _ f). 2:{ intros d Hd. unfold f. destruct (Z.leb_spec 0 d); [|lia]. destruct (Z.ltb_spec d B); [|lia]. reflexivity. }
        apply sparse_hits; [exact Ho|intros i; unfold f; destruct (_ && _); lia|]. intros i j _ _ Hi Hj. unfold f in Hi, Hj.
        destruct ((0 <=? i) && (i <? B) && test [i]) eqn:Ei; [|discriminate]. destruct ((0 <=? j) && (j <? B) && test [j]) eqn:Ej; [|discriminate].
        apply andb_true_iff in Ei, Ej. destruct Ei as [Ei Ti], Ej as [Ej Tj]. apply (H i j []); try assumption; try lia. constructor.
      - cbn [count]. assert (Sw : forall M N (F : Z -> Z -> Z), zsum M (fun d => zsum N (fun e => F d e)) = zsum N (fun e => zsum M (fun d => F d e))).
        { clear. intros M N F. induction M as [|m IHm]; cbn [zsum]; [induction N as [|n IHn]; cbn [zsum]; lia|]. rewrite IHm. clear. induction N as [|n IHn]; cbn [zsum]; [reflexivity|]. lia. }
        rewrite Sw, tuples_cons. set (w := tuples post * ((B + ord - 1) / ord)).
        assert (K : forall e, 0 <= e < b -> zsum (Z.to_nat B) (fun d => count post (fun ds => test (d :: e :: ds))) <= w).
        { intros e He. apply (IHp (fun ds => test (match ds with [] => [] | d :: r => d :: e :: r end))). intros i j c Hc Hi Hj. apply H; [constructor; assumption|assumption|assumption]. }
        replace (b * tuples post * ((B + ord - 1) / ord)) with (Z.of_nat (Z.to_nat b) * w) by (unfold w; rewrite Z2Nat.id by lia; ring).
        set (F := fun e => zsum (Z.to_nat B) (fun d => count post (fun ds => test (d :: e :: ds)))) in *. change (zsum (Z.to_nat b) F <= Z.of_nat (Z.to_nat b) * w). change (forall e, 0 <= e < b -> F e <= w) in K.
        assert (K' : forall e, 0 <= e < Z.of_nat (Z.to_nat b) -> F e <= w) by (intros; apply K; lia). clearbody F w. clear - K'. induction (Z.to_nat b) as [|m IHm]; cbn [zsum]; [lia|].
        specialize (IHm ltac:(intros; apply K'; lia)). pose proof (K' (Z.of_nat m) ltac:(lia)). lia. }
    intros test H. apply G; [assumption|]. intros i j c. apply (H [] i j c eq_refl). constructor.
  - cbn [app count]. rewrite tuples_cons. set (w := tuples pre * tuples post * ((B + ord - 1) / ord)) in *.
    assert (K : forall e, 0 <= e < Z.of_nat (Z.to_nat b) -> count (pre ++ B :: post) (fun ds => test (e :: ds)) <= w).
    { intros e He. apply IH. intros a i j c La Ra Rc Hi Hj. apply (H (e :: a) i j c); [cbn [length]; lia|constructor; [lia|exact Ra]|exact Rc|exact Hi|exact Hj]. }
    replace (b * tuples pre * tuples post * ((B + ord - 1) / ord)) with (Z.of_nat (Z.to_nat b) * w) by (unfold w; rewrite Z2Nat.id by lia; ring).
    set (F := fun e => count (pre ++ B :: post) (fun ds => test (e :: ds))) in *. change (zsum (Z.to_nat b) F <= Z.of_nat (Z.to_nat b) * w). change (forall e, 0 <= e < Z.of_nat (Z.to_nat b) -> F e <= w) in K.
    clearbody F w. clear - K. induction (Z.to_nat b) as [|m IHm]; cbn [zsum]; [lia|]. specialize (IHm ltac:(intros; apply K; lia)). pose proof (K (Z.of_nat m) ltac:(lia)). lia.
Qed.

Lemma tuples_repeat M n : tuples (repeat M n) = M ^ Z.of_nat n.
Proof. induction n as [|n IH]; [reflexivity|]. cbn [repeat]. rewrite tuples_cons, IH. replace (Z.of_nat (S n)) with (Z.of_nat n + 1) by lia. destruct (Z.eq_dec M 0) as [->|]; [rewrite Z.mul_0_l, Z.pow_0_l by lia; reflexivity|]. rewrite Z.pow_add_r, Z.pow_1_r by lia. ring. Qed.

(** If the question determines one of the draws up to a multiple of [ord], once the other draws are fixed. *)
Lemma guesses_counted {A} k num s pre B post ord bad (run : (bytes -> bytes) -> list Z -> outcome A) query sim : 0 <= k -> 0 <= s -> 0 < ord ->
  Forall (fun b => 0 <= b) (pre ++ B :: post) ->
  (forall f, (forall x, 0 <= f x < 2 ^ k) -> exists sha512, forall x : bytes, random_oracle 512 sha512 x (2 ^ k) = Ok (f x)) ->
  (forall sha512 a i j c r1 r2 x, oracle_says sha512 k 0 -> length a = length pre -> in_range (pre ++ B :: post) (a ++ i :: c) -> in_range (pre ++ B :: post) (a ++ j :: c) ->
     bad 0 (a ++ i :: c) = false -> bad 0 (a ++ j :: c) = false ->
     run sha512 (a ++ i :: c) = Ok r1 -> run sha512 (a ++ j :: c) = Ok r2 -> query r1 = Ok x -> query r2 = Ok x -> (ord | i - j)) ->
  shows_nothing k num s (pre ++ B :: post) bad run query sim ->
  shows_little k num s (pre ++ B :: post) bad (tuples pre * tuples post * ((B + ord - 1) / ord)) run query sim.
Proof.
  intros Hk Hs Ho Hb Hsha Hinj (tree & Hcode & Hone & Hobs). exists tree. split; [exact Hcode|]. intros o q n Ha. specialize (Hobs o n). cbv zeta in *.
  assert (P : 0 < 2 ^ k) by (apply Z.pow_pos_nonneg; lia). set (bounds := pre ++ B :: post) in *.
  set (tree' := fun ds => if bad 0 ds then Give UB else tree ds).
  set (G := tuples pre * tuples post * ((B + ord - 1) / ord)).
  pose proof (proj1 (Forall_app _ _ _) Hb) as [Hpre HB']. inversion HB' as [|? ? HB Hpost]. subst.
  assert (HG : 0 <= G).
  { assert (T : forall bs, Forall (fun b => 0 <= b) bs -> 0 <= tuples bs) by (intros bs F; induction F; [unfold tuples; cbn; lia|rewrite tuples_cons; nia]).
    assert (0 <= (B + ord - 1) / ord) by (apply Z.div_pos; lia). pose proof (T pre Hpre). pose proof (T post Hpost). unfold G. apply Z.mul_nonneg_nonneg; [apply Z.mul_nonneg_nonneg|]; assumption. }
  assert (Hx : forall x, count bounds (fun ds => asks_about (tree' ds) x) <= G).
  { intros x. apply sparse_count; try assumption. intros a i j c La Ra Rc Hi Hj Ti Tj. destruct (Hsha (fun _ => 0) (fun _ => conj (Z.le_refl 0) P)) as (sha & Esha).
    assert (Q : forall u, in_range bounds u -> asks_about (tree' u) x = true -> bad 0 u = false /\ exists r, run sha u = Ok r /\ query r = Ok x).
    { intros u Ru Tu. unfold tree' in Tu. destruct (bad 0 u) eqn:Bu; [discriminate|]. split; [reflexivity|]. destruct (Hone u 0 Ru ltac:(lia) Bu) as (y & next & r & Et & En & Eq).
      rewrite Et in Tu. unfold asks_about, question in Tu. apply bytes_eqb_eq in Tu. subst y. exists r. split; [|exact Eq].
      destruct (Hcode u Ru) as [_ Hc]. specialize (Hc sha). cbv beta in Hc. rewrite Et in Hc. cbn [answered] in Hc. rewrite Esha in Hc. cbn [bind] in Hc. rewrite En in Hc. cbn [answered] in Hc. symmetry. exact Hc. }
    assert (R : forall d, 0 <= d < B -> in_range bounds (a ++ d :: c)) by (intros d Hd; apply Forall2_app; [exact Ra|constructor; assumption]).
    destruct (Q _ (R i Hi) Ti) as (Bi & ri & Ei & Xi). destruct (Q _ (R j Hj) Tj) as (Bj & rj & Ej & Xj).
    apply (Hinj sha a i j c ri rj x); try assumption; try (apply R; assumption). }
  pose proof (guess_bound k bounds tree' G o q n Hk Hb HG Hx Ha) as HGu.
  assert (Split : count (repeat (2 ^ k) n ++ bounds) (fun v => asked_before o (tree (skipn n v)) (firstn n v)) <=
    count (repeat (2 ^ k) n ++ bounds) (fun v => asked_before o (tree' (skipn n v)) (firstn n v)) + count (repeat (2 ^ k) n ++ bounds) (fun v => bad 0 (skipn n v))).
  { apply count_sub_or; [|apply Forall_app; split; [apply Forall_forall; intros y Hy; apply repeat_spec in Hy; lia|exact Hb]].
    intros ds _ _ H. destruct (bad 0 (skipn n ds)) eqn:Bd; [right; reflexivity|left]. unfold tree'. rewrite Bd. exact H. }
  rewrite tuples_repeat. assert (S0 : 0 < 2 ^ s) by (apply Z.pow_pos_nonneg; lia).
  eapply Z.le_trans; [exact Hobs|]. apply Z.add_le_mono_l, Z.mul_le_mono_nonneg_l; [lia|]. lia.
Qed.
