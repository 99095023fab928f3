(** Lemmas for C102. *)
From Verif Require Import Base M_RecordIO M_Dec M_Shard S_Shard L_Shard S_ShardSize.

Lemma volume_app a b : volume (a ++ b) = volume a + volume b.
Proof. induction a as [|r a IH]; cbn [app volume fold_right]; [reflexivity|]. fold (volume (a ++ b)) (volume a). lia. Qed.
Lemma volume_nonneg l : 0 <= volume l.
Proof. induction l as [|r l IH]; cbn [volume fold_right]; [lia|]. fold (volume l). lia. Qed.
Lemma cut_app limit gs : Forall (overfull limit) gs -> forall last, last <> [] -> volume (removelast last) <= limit -> cut limit (concat gs ++ last) (gs ++ [last]).
Proof.
  induction 1 as [|g gs Hg _ IH]; intros last N V; cbn [concat app]; [constructor; assumption|]. rewrite <- app_assoc. apply cut_more; [exact Hg| |apply IH; assumption].
  intros E. apply app_eq_nil in E. tauto.
Qed.
Lemma overfull_nonempty limit g : overfull limit g -> 0 <= limit -> g <> [].
Proof. intros [_ H] L ->. cbn in H. lia. Qed.

(** The cut is determined by the records. *)
Lemma prefix_removelast (a b x y : list bytes) : a ++ x = b ++ y -> (length a < length b)%nat -> exists z, removelast b = a ++ z.
Proof.
  revert b. induction a as [|r a IH]; intros b E L; [exists (removelast b); reflexivity|]. destruct b as [|q b]; [cbn in L; lia|]. injection E as -> E. cbn in L.
  destruct (IH b E ltac:(lia)) as (z & Ez). exists z. destruct b as [|q' b]; [cbn in L; lia|]. cbn [removelast] in *. rewrite Ez. reflexivity.
Qed.
Lemma overfull_same limit a b x y : overfull limit a -> volume (removelast b) <= limit -> a ++ x = b ++ y -> (length b <= length a)%nat.
Proof.
  intros [_ A] B E. destruct (Nat.lt_ge_cases (length a) (length b)) as [L|L]; [|exact L]. destruct (prefix_removelast a b x y E L) as (z & Ez). rewrite Ez, volume_app in B. pose proof (volume_nonneg z). lia.
Qed.
Lemma cut_unique limit rs gs : cut limit rs gs -> forall gs', cut limit rs gs' -> gs = gs'.
Proof.
  induction 1 as [|g N V|g rest gs O N C IH]; intros gs' C'.
  - inversion C' as [|g' N' V'|g' rest' gs2 O' N' C2 E']; [reflexivity|subst; congruence|]. apply app_eq_nil in E'. destruct E' as [-> ->]. exfalso. apply N'. reflexivity.
  - inversion C' as [|g' N' V'|g' rest' gs2 O' N' C2 E']; subst; [congruence|reflexivity|]. exfalso.
    pose proof (overfull_same limit g' (g' ++ rest') rest' [] O' V ltac:(rewrite app_nil_r; reflexivity)) as L. rewrite app_length in L. destruct rest'; [congruence|cbn in L; lia].
  - inversion C' as [|g' N' V'|g' rest' gs2 O' N' C2 E']; subst.
    + exfalso. match goal with Q : [] = _ |- _ => symmetry in Q; apply app_eq_nil in Q; destruct Q as [_ ->]; congruence end.
    + exfalso. pose proof (overfull_same limit g (g ++ rest) rest [] O V' ltac:(rewrite app_nil_r; reflexivity)) as L. rewrite app_length in L. destruct rest; [congruence|cbn in L; lia].
    + assert (El : length g = length g').
      { apply Nat.le_antisymm; [exact (overfull_same limit g' g rest' rest O' (proj1 O) E')|exact (overfull_same limit g g' rest rest' O (proj1 O') (eq_sym E'))]. }
      assert (E2 : g = g' /\ rest = rest').
      { clear - El E'. revert g' El E'. induction g as [|r g IHg]; intros [|q g'] El E'; try discriminate; [split; [reflexivity|exact (eq_sym E')]|]. injection El as El. injection E' as -> E'. destruct (IHg g' El E') as [-> ->]. auto. }
      destruct E2 as [-> ->]. f_equal. apply IH, C2.
Qed.

Section Sizes.
  Context {K : Type} (key : bytes -> K) (ltb : K -> K -> bool) (HO : strict_total ltb) (mb : Z).
  Notation write_cache := (write_cache K key ltb).
  Notation sw_write := (sw_write K key ltb mb).
  Notation sw_close := (sw_close K key ltb).
  Notation sw_run := (sw_run K key ltb mb).
  Notation inv := (inv key ltb).

  Lemma write_cache_effect p d0 w s d fl s1 d1 ev : inv p d0 w s d -> write_cache s d fl = (s1, d1, Ok tt, ev) ->
    sw_cache s = [] /\ s1 = s /\ d1 = d \/
    sw_cache s <> [] /\ sw_cache s1 = [] /\ sw_bytes s1 = 0 /\ sw_shards s1 = sw_shards s ++ [sw_fname s] /\ d1 = fs_set d (sw_fname s) (write_records (sort_by K key ltb (sw_cache s))).
  Proof.
    intros I H. unfold M_Shard.write_cache in H. rewrite (i_healthy _ _ _ _ _ _ _ I), (i_file _ _ _ _ _ _ _ I) in H. cbn [negb] in H. destruct (sw_cache s) as [|x c] eqn:Ec; [injection H as <- <- _; auto|]. right.
    destruct (fl_open fl); [discriminate|]. destruct (fl_write fl) as [[i cc]|]; [destruct (i <? _)%nat|]; destruct (fl_close fl); cbn [andb] in H; try discriminate; injection H as <- <- _; cbn [sw_cache sw_bytes sw_shards]; (split; [discriminate|auto]).
  Qed.

  (** The groups written so far and the one being collected. *)
  Record ginv (w : list bytes) (gs : list (list bytes)) (s : sw) (d : fs) : Prop := {
    g_all : w = concat gs ++ sw_cache s;
    g_full : Forall (overfull mb) gs;
    g_files : Forall2 (fun n g => exists l, d n = Some (write_records l) /\ key_sorted key ltb l /\ Permutation l g) (sw_shards s) gs;
    g_bytes : sw_bytes s = volume (sw_cache s);
    g_room : volume (removelast (sw_cache s)) <= mb;
    g_last : sw_cache s = [] -> gs = [] }.

  Lemma ginv_flush p d0 w w' s d fl s1 d1 ev gs : inv p d0 w' s d -> ginv w gs s d -> write_cache s d fl = (s1, d1, Ok tt, ev) -> sw_cache s <> [] ->
    Forall2 (fun n g => exists l, d1 n = Some (write_records l) /\ key_sorted key ltb l /\ Permutation l g) (sw_shards s1) (gs ++ [sw_cache s]) /\ sw_cache s1 = [] /\ sw_bytes s1 = 0.
  Proof.
    intros I G E N. destruct (write_cache_effect _ _ _ _ _ _ _ _ _ I E) as [(X & _)|(_ & Ec & Eb & Es & ->)]; [congruence|]. rewrite Es, Ec, Eb. split; [|auto].
    assert (Hf : ~ In (sw_fname s) (sw_shards s)). { destruct I as [(ls & E1 & E2 & _) En _ _ _ _ _]. rewrite En, E1, E2. apply names_fresh. }
    apply Forall2_app.
    - pose proof (g_files _ _ _ _ G) as F. clear - F Hf. revert Hf. induction F as [|n g ns gs (l & A & B & D) F IH]; intros Hf; constructor.
      + exists l. split; [|auto]. rewrite fs_set_neq; [exact A|]. intros ->. apply Hf. left. reflexivity.
      + apply IH. intros H. apply Hf. right. exact H.
    - constructor; [|constructor]. exists (sort_by K key ltb (sw_cache s)). split; [apply fs_set_eq|]. split; [apply sort_by_sorted; exact HO|apply sort_by_perm].
  Qed.

  Lemma wrap32_small z : 0 <= z < 2 ^ 31 -> wrap32 z = z.
  Proof. intros H. unfold wrap32. rewrite Z.mod_small by lia. lia. Qed.

  Lemma ginv_write p d0 w s d r fl s1 d1 ev gs : 0 <= mb -> mb + Z.of_nat (length r) < 2 ^ 31 -> mb < 2 ^ 31 -> inv p d0 w s d -> ginv w gs s d -> volume (sw_cache s) < 2 ^ 31 -> sw_write s d r fl = (s1, d1, Ok tt, ev) ->
    (exists gs', ginv (w ++ [r]) gs' s1 d1) /\ volume (sw_cache s1) < 2 ^ 31.
  Proof.
    intros M0 Mr Mb I G Vs H. unfold M_Shard.sw_write in H. rewrite (i_open _ _ _ _ _ _ _ I), (i_healthy _ _ _ _ _ _ _ I) in H. cbn [negb] in H.
    pose proof (volume_nonneg (sw_cache s)) as V0. destruct (Z.ltb_spec mb (sw_bytes s)) as [F|F]; rewrite (g_bytes _ _ _ _ G) in F.
    - destruct (write_cache s d fl) as [[[s2 d2] st] ev2] eqn:E. destruct st as [[]| | | |]; try discriminate. injection H as <- <- _.
      assert (N : sw_cache s <> []) by (intros X; rewrite X in F; cbn in F; lia).
      destruct (ginv_flush _ _ _ _ _ _ _ _ _ _ _ I G E N) as (A & B & D). split; [exists (gs ++ [sw_cache s])|].
      + constructor; cbn [sw_cache sw_bytes sw_shards]; rewrite ?B, ?D; cbn [app].
        * rewrite concat_app. cbn [concat]. rewrite app_nil_r, (g_all _ _ _ _ G). reflexivity.
        * apply Forall_app. split; [exact (g_full _ _ _ _ G)|]. constructor; [|constructor]. split; [exact (g_room _ _ _ _ G)|exact F].
        * exact A.
        * rewrite wrap32_small by lia. cbn. lia.
        * cbn. lia.
        * discriminate.
      + cbn [sw_cache]. rewrite B. cbn. lia.
    - injection H as <- <- _. split; [exists gs|].
      + constructor; cbn [sw_cache sw_bytes sw_shards].
        * rewrite (g_all _ _ _ _ G), <- app_assoc. reflexivity.
        * exact (g_full _ _ _ _ G).
        * exact (g_files _ _ _ _ G).
        * rewrite (g_bytes _ _ _ _ G), volume_app. cbn [volume fold_right]. rewrite wrap32_small by lia. lia.
        * rewrite removelast_last. exact F.
        * intros X. apply app_eq_nil in X. destruct X as [_ X]. discriminate.
      + cbn [sw_cache]. rewrite volume_app. cbn [volume fold_right]. lia.
  Qed.

  Lemma ginv_body p d0 ops rs : 0 <= mb -> mb < 2 ^ 31 -> session_body p ops rs -> Forall (fun r : bytes => mb + Z.of_nat (length r) < 2 ^ 31) rs -> forall w s d sd tr,
    inv p d0 w s d -> (exists gs, ginv w gs s d) -> volume (sw_cache s) < 2 ^ 31 -> sw_run (s, d) ops = (sd, tr) -> all_ok tr ->
    inv p d0 (w ++ rs) (fst sd) (snd sd) /\ exists gs, ginv (w ++ rs) gs (fst sd) (snd sd).
  Proof.
    intros M0 Mb B. induction B as [|ops rs B IH|r fl ops rs B IH]; intros Hr w s d sd tr I G V R A.
    - injection R as <- <-. rewrite app_nil_r. auto.
    - cbn in R. destruct (sw_run (sw_set_prefix s p, d) ops) as [sd2 t2] eqn:E. injection R as <- <-. inversion A; subst.
      eapply IH; [exact Hr|apply inv_prefix; exact I| |exact V|exact E|assumption]. destruct G as (gs & [G1 G2 G3 G4 G5 G6]). exists gs. constructor; cbn; assumption.
    - inversion Hr as [|? ? Hr1 Hr2]; subst. cbn [M_Shard.sw_run M_Shard.sw_step] in R. destruct (sw_write s d r fl) as [[[s1 d1] o] ev] eqn:E1. destruct (sw_run (s1, d1) ops) as [sd2 t2] eqn:E. injection R as <- <-.
      inversion A as [|? ? A1 A2]; subst. cbn in A1. subst o. replace (w ++ r :: rs) with ((w ++ [r]) ++ rs) by (rewrite <- app_assoc; reflexivity).
      destruct G as (gs & G). destruct (ginv_write _ _ _ _ _ _ _ _ _ _ _ M0 Hr1 Mb I G V E1) as (G' & V'). eapply IH; [exact Hr2|eapply sw_write_ok; eassumption|exact G'|exact V'|exact E|exact A2].
  Qed.

  Lemma start p d : inv p d [] (sw_set_prefix sw_init p) d /\ (0 <= mb -> ginv [] [] (sw_set_prefix sw_init p) d).
  Proof.
    split; [constructor; cbn; auto; exists []; cbn; repeat split; auto|]. intros M. constructor; cbn; auto.
  Qed.

  Lemma session_sizes p d ops rs fl sd tr : 0 <= mb < 2 ^ 31 -> Forall (fun r : bytes => mb + Z.of_nat (length r) < 2 ^ 31) rs -> session p ops rs ->
    sw_run (sw_init, d) (ops ++ [OpClose fl]) = (sd, tr) -> all_ok tr ->
    exists ns gs, (exists ev tr', tr = tr' ++ [(OpClose fl, RClose (Ok ns), ev)]) /\ cut mb rs gs /\
      Forall2 (fun n g => exists l, snd sd n = Some (write_records l) /\ key_sorted key ltb l /\ Permutation l g) ns gs.
  Proof.
    intros M Hr (ops' & -> & B) R A. rewrite sw_run_app in R. destruct (sw_run (sw_init, d) (OpPrefix p :: ops')) as [[s1 d1] t1] eqn:E1.
    cbn in E1. destruct (sw_run (sw_set_prefix sw_init p, d) ops') as [sd2 t2] eqn:E2. injection E1 as -> <-. cbn [M_Shard.sw_run M_Shard.sw_step] in R.
    destruct (sw_close s1 d1 fl) as [[[s3 d3] o] ev] eqn:E3. injection R as <- <-. inversion A as [|? ? _ A0]; subst. apply Forall_app in A0. destruct A0 as (A3 & A2).
    inversion A2 as [|? ? A4 _]; subst. cbn in A4. destruct A4 as (ns & ->). destruct (start p d) as [I0 G0].
    destruct (ginv_body _ _ _ _ (proj1 M) (proj2 M) B Hr _ _ _ _ _ I0 (ex_intro _ _ (G0 (proj1 M))) ltac:(cbn; lia) E2 A3) as (I1 & gs & G1). cbn [app fst snd] in I1, G1.
    unfold M_Shard.sw_close in E3. rewrite (i_open _ _ _ _ _ _ _ I1) in E3. cbn [negb] in E3. destruct (write_cache s1 d1 fl) as [[[s4 d4] st] ev4] eqn:E4. destruct st as [[]| | | |]; try discriminate. cbn in E3. injection E3 as <- <- <- <-.
    exists (sw_shards s4). destruct (sw_cache s1) as [|x c] eqn:Ec.
    - destruct (write_cache_effect _ _ _ _ _ _ _ _ _ I1 E4) as [(_ & -> & ->)|(N & _)]; [|congruence]. pose proof (g_last _ _ _ _ G1 Ec) as ->. exists []. split; [exists ev4, ((OpPrefix p, RUnit, []) :: t2); reflexivity|].
      split; [rewrite (g_all _ _ _ _ G1), Ec; constructor|exact (g_files _ _ _ _ G1)].
    - assert (N : sw_cache s1 <> []) by congruence. destruct (ginv_flush _ _ _ _ _ _ _ _ _ _ _ I1 G1 E4 N) as (F & _). exists (gs ++ [sw_cache s1]). split; [exists ev4, ((OpPrefix p, RUnit, []) :: t2); reflexivity|].
      split; [|exact F]. rewrite (g_all _ _ _ _ G1). apply cut_app; [exact (g_full _ _ _ _ G1)|exact N|exact (g_room _ _ _ _ G1)].
  Qed.
  Lemma session_memory p d ops rs sd tr : 0 <= mb < 2 ^ 31 -> Forall (fun r : bytes => mb + Z.of_nat (length r) < 2 ^ 31) rs -> session p ops rs ->
    sw_run (sw_init, d) ops = (sd, tr) -> all_ok tr -> volume (removelast (sw_cache (fst sd))) <= mb.
  Proof.
    intros M Hr (ops' & -> & B) R A. cbn in R. destruct (sw_run (sw_set_prefix sw_init p, d) ops') as [sd2 t2] eqn:E2. injection R as <- <-. inversion A as [|? ? _ A0]; subst. destruct (start p d) as [I0 G0].
    destruct (ginv_body _ _ _ _ (proj1 M) (proj2 M) B Hr _ _ _ _ _ I0 (ex_intro _ _ (G0 (proj1 M))) ltac:(cbn; lia) E2 A0) as (_ & gs & G1). exact (g_room _ _ _ _ G1).
  Qed.

  (** With the largest limit nothing is written before Close. *)
  Lemma wrap32_max z : wrap32 z <= 2 ^ 31 - 1.
  Proof. unfold wrap32. pose proof (Z.mod_pos_bound (z + 2 ^ 31) (2 ^ 32) ltac:(lia)). lia. Qed.
  Lemma never_written p ops rs : mb = 2 ^ 31 - 1 -> session_body p ops rs -> forall s d sd tr, sw_open s = true -> sw_healthy s = true -> sw_bytes s <= 2 ^ 31 - 1 -> sw_run (s, d) ops = (sd, tr) ->
    all_ok tr /\ sw_cache (fst sd) = sw_cache s ++ rs /\ snd sd = d /\ sw_shards (fst sd) = sw_shards s.
  Proof.
    intros M B. induction B as [|ops rs B IH|r fl ops rs B IH]; intros s d sd tr Ho Hh Hb R.
    - injection R as <- <-. rewrite app_nil_r. repeat split; constructor.
    - cbn in R. destruct (sw_run (sw_set_prefix s p, d) ops) as [sd2 t2] eqn:E. injection R as <- <-. destruct (IH (sw_set_prefix s p) d sd2 t2 eq_refl Hh Hb E) as (A & C). split; [constructor; [exact I|exact A]|exact C].
    - cbn [M_Shard.sw_run M_Shard.sw_step] in R. destruct (sw_write s d r fl) as [[[s1 d1] o] ev] eqn:E1. destruct (sw_run (s1, d1) ops) as [sd2 t2] eqn:E. injection R as <- <-.
      unfold M_Shard.sw_write in E1. rewrite Ho, Hh in E1. cbn [negb] in E1. destruct (Z.ltb_spec mb (sw_bytes s)) as [F|F]; [lia|]. injection E1 as <- <- <- <-.
      edestruct IH as (A & C & D & S'); [| | |exact E|]; [reflexivity..|apply wrap32_max|]. split; [constructor; [reflexivity|exact A]|]. split; [rewrite C; cbn [sw_cache]; rewrite <- app_assoc; reflexivity|]. split; [exact D|exact S'].
  Qed.
End Sizes.
