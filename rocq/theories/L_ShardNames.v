(** Lemmas for C103. *)
From Verif Require Import Base M_RecordIO M_Shard S_Shard L_Shard S_ShardNames.

Definition opens (ev : list event) : list bytes := flat_map (fun e => match e with EvOpen n true => [n] | _ => [] end) ev.
Lemma opens_app a b : opens (a ++ b) = opens a ++ opens b.
Proof. apply flat_map_app. Qed.
Lemma opens_writes n f l : opens (map (fun j : nat => EvWrite n j (f j)) l) = [].
Proof. induction l as [|x l IH]; [reflexivity|exact IH]. Qed.

Section Names.
  Context {K : Type} (key : bytes -> K) (ltb : K -> K -> bool) (mb : Z).
  Notation write_cache := (M_Shard.write_cache K key ltb).
  Notation sw_write := (M_Shard.sw_write K key ltb mb).
  Notation sw_close := (M_Shard.sw_close K key ltb).
  Notation sw_step := (M_Shard.sw_step K key ltb mb).
  Notation sw_run := (M_Shard.sw_run K key ltb mb).

  Lemma cache_names s d fl s1 d1 st ev : write_cache s d fl = (s1, d1, st, ev) ->
    sw_shards s1 = sw_shards s ++ opens ev /\ (forall n, ~ In n (opens ev) -> d1 n = d n).
  Proof.
    unfold M_Shard.write_cache. destruct (negb (sw_healthy s)). { intros E. injection E as <- <- <- <-. cbn. rewrite app_nil_r. auto. }
    destruct (sw_cache s) as [|r c]. { intros E. injection E as <- <- <- <-. cbn. rewrite app_nil_r. auto. }
    set (so := sort_by K key ltb (r :: c)). destruct (match sw_file s with PClosed => fl_open fl | PDangling => true end). { intros E. injection E as <- <- <- <-. cbn. rewrite app_nil_r. auto. }
    set (X := match fl_write fl with None => _ | Some _ => _ end).
    assert (W : opens (snd X) = []). { unfold X. destruct (fl_write fl) as [[i c']|]; [destruct (i <? length so)%nat|]; cbn [snd]; apply opens_writes. }
    destruct X as [[content wrote] wevs]. destruct (match fl_close fl with Some _ => _ | None => _ end) as [content' closed]. intros E. injection E as <- <- <- <-.
    cbn [snd] in W. change (EvOpen (sw_fname s) true :: wevs ++ [EvClose (sw_fname s) closed]) with ([EvOpen (sw_fname s) true] ++ (wevs ++ [EvClose (sw_fname s) closed])).
    rewrite !opens_app, W. cbn. split; [reflexivity|]. intros n N. apply fs_set_neq. intros ->. apply N. left. reflexivity.
  Qed.

  Lemma step_names s d op s1 d1 r ev : sw_step (s, d) op = ((s1, d1), r, ev) ->
    (forall n, ~ In n (opens ev) -> d1 n = d n) /\ (~ is_close op -> sw_shards s1 = sw_shards s ++ opens ev) /\ (is_close op -> sw_shards s1 = []) /\
    (forall ns, r = RClose (Ok ns) -> ns = sw_shards s ++ opens ev).
  Proof.
    destruct op as [p|x fl|fl]; cbn [M_Shard.sw_step].
    - intros E. injection E as <- <- <- <-. cbn. rewrite app_nil_r. repeat split; try tauto. discriminate.
    - destruct (sw_write s d x fl) as [[[s' d'] o] ev'] eqn:W. intros E. injection E as <- <- <- <-. unfold M_Shard.sw_write in W.
      destruct (negb (sw_open s)). { injection W as <- <- <- <-. cbn. rewrite app_nil_r. repeat split; try tauto. discriminate. }
      destruct (negb (sw_healthy s)). { injection W as <- <- <- <-. cbn. rewrite app_nil_r. repeat split; try tauto. discriminate. }
      destruct (mb <? sw_bytes s). 2: { injection W as <- <- <- <-. cbn. rewrite app_nil_r. repeat split; try tauto. discriminate. }
      destruct (write_cache s d fl) as [[[s2 d2] st] ev2] eqn:C. destruct (cache_names _ _ _ _ _ _ _ C) as [N1 N2].
      destruct st; injection W as <- <- <- <-; cbn [sw_shards is_close]; (split; [exact N2|]); (split; [intros _; exact N1|]); (split; [intros []|discriminate]).
    - destruct (sw_close s d fl) as [[[s' d'] o] ev'] eqn:W. intros E. injection E as <- <- <- <-. unfold M_Shard.sw_close in W.
      destruct (negb (sw_open s)). { injection W as <- <- <- <-. cbn. repeat split; try tauto. discriminate. }
      destruct (write_cache s d fl) as [[[s2 d2] st] ev2] eqn:C. destruct (cache_names _ _ _ _ _ _ _ C) as [N1 N2]. injection W as <- <- <- <-. cbn [sw_shards is_close].
      split; [exact N2|]. split; [intros []; exact I|]. split; [reflexivity|]. intros ns E. destruct st; cbn in E; try discriminate. injection E as <-. exact N1.
  Qed.
  Lemma created_cons op r ev tr : created ((op, r, ev) :: tr) = opens ev ++ created tr.
  Proof. reflexivity. Qed.
  Lemma run_names ops : forall s d s1 d1 tr, sw_run (s, d) ops = ((s1, d1), tr) ->
    (forall n, ~ In n (created tr) -> d1 n = d n) /\ (no_close ops -> sw_shards s1 = sw_shards s ++ created tr) /\
    ((exists h fl, ops = h ++ [OpClose fl]) -> sw_shards s1 = []).
  Proof.
    induction ops as [|op ops IH]; intros s d s1 d1 tr R.
    - injection R as <- <- <-. cbn. rewrite app_nil_r. repeat split; auto. intros (h & fl & E). destruct h; discriminate.
    - cbn [M_Shard.sw_run] in R. destruct (sw_step (s, d) op) as [[[s' d'] r] ev] eqn:E1. destruct (sw_run (s', d') ops) as [[s2 d2] t2] eqn:E2. injection R as <- <- <-.
      destruct (step_names _ _ _ _ _ _ _ E1) as (A & B & C & _). destruct (IH _ _ _ _ _ E2) as (D & F & G). rewrite created_cons. split; [|split].
      + intros n N. rewrite D, A; [reflexivity|..]; intros I; apply N, in_or_app; auto.
      + intros N. inversion N as [|? ? N1 N2]; subst. rewrite (F N2), (B N1), app_assoc. reflexivity.
      + intros (h & fl & E). destruct h as [|o h]; cbn in E; injection E as -> ->; [|apply G; eauto]. cbn in E2. injection E2 as <- <- <-. apply C. exact I.
  Qed.
  Lemma last_names ops fl s d sd tr tr' ns ev : sw_run (s, d) (ops ++ [OpClose fl]) = (sd, tr) -> no_close ops -> tr = tr' ++ [(OpClose fl, RClose (Ok ns), ev)] -> ns = sw_shards s ++ created tr.
  Proof.
    revert s d tr tr'. induction ops as [|op ops IH]; intros s d tr tr' R N E.
    - cbn [app M_Shard.sw_run] in R. destruct (sw_step (s, d) (OpClose fl)) as [[[s' d'] r] ev1] eqn:E1. injection R as _ <-.
      assert (tr' = []) as ->. { destruct tr' as [|x t]; [reflexivity|]. cbn in E. injection E as _ E. destruct t; discriminate. }
      cbn in E. injection E as -> ->. destruct (step_names _ _ _ _ _ _ _ E1) as (_ & _ & _ & A). rewrite (A _ eq_refl). cbn. rewrite app_nil_r. reflexivity.
    - cbn [app M_Shard.sw_run] in R. destruct (sw_step (s, d) op) as [[[s' d'] r] ev1] eqn:E1. destruct (sw_run (s', d') (ops ++ [OpClose fl])) as [sd2 t2] eqn:E2. injection R as <- <-.
      destruct (step_names _ _ _ _ _ _ _ E1) as (_ & B & _). inversion N as [|? ? N1 N2]; subst.
      destruct tr' as [|x t]. { cbn in E. injection E as -> -> -> ->. destruct (N1 I). }
      cbn in E. injection E as <- E. rewrite (IH _ _ _ _ E2 N2 E), (B N1), created_cons, app_assoc. reflexivity.
  Qed.
End Names.
