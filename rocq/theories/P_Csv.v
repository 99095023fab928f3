(** Properties C13-C16: CSV lines, dataset files, random databases, paths. *)
From Coq Require Import Permutation.
From Verif Require Import Base M_Dec M_RecordIO M_BigNum M_Csv S_Csv L_Csv L_Db L_Path.

(** *** C13 *)

(** Splitting a line of escaped fields returns the fields. *)
Theorem C13_escape_split_roundtrip : forall fs,
  Forall (fun f => ~ In x00 f) fs -> split_csv_line (join_commas (map escape_for_csv fs)) = Ok fs.
Proof. exact split_escaped. Qed.
Print Assumptions C13_escape_split_roundtrip.
(* quotes, commas, white space, newlines, an empty field and bytes above 0x7f *)
Example C13_roundtrip_ex : let fs := [[x22; x2c; x22]; []; [x20; x0a; x09]; [xff; x2c]; []] in
  Forall (fun f => ~ In x00 f) fs /\ split_csv_line (join_commas (map escape_for_csv fs)) = Ok fs.
Proof. split; [repeat constructor; cbn; intuition discriminate|vm_compute; reflexivity]. Qed.

(** Every line made of cells (quoted or not, see S_Csv.cell) is split into the values of the cells. *)
Theorem C13_split_cells : forall raws values,
  Forall2 cell raws values -> raws <> [[]] -> ~ In x00 (join_commas raws) ->
  split_csv_line (join_commas raws) = Ok values.
Proof. exact split_cells. Qed.
Print Assumptions C13_split_cells.
Example C13_cells_ex : Forall2 cell [[x20; x61; x20; x62; x20]; [x22; x63; x22; x78]; []] [[x61; x20; x62]; [x63]; []].
Proof.
  constructor; [|constructor; [|constructor; [|constructor]]].
  - apply (cell_plain [x20] [x61; x20; x62] [x20]); try (repeat constructor; fail).
    + cbn; intuition discriminate.
    + intros b t E. injection E as <- _. split; [unfold white; cbn; intuition discriminate|discriminate].
    + intros b t E. assert (Hb : b = x62).
      { apply (f_equal (@rev byte)) in E. rewrite rev_app_distr in E. cbn in E. injection E as <- _. reflexivity. }
      subst. unfold white; cbn; intuition discriminate.
  - apply (cell_quoted [] [x63] [x63] [x78]); [constructor|constructor; [discriminate|constructor]|cbn; intuition discriminate|discriminate].
  - apply (cell_plain [] [] []); try constructor; try (intros []); try (intros; destruct t; discriminate).
    all: intros; discriminate.
Qed.

(** A NUL byte cuts the field (and the rest of the line) off: the round trip needs NUL-free fields. *)
Theorem C13_nul_truncates : forall a b, ~ In x00 a -> split_csv_line (escape_for_csv (a ++ x00 :: b)) = Ok [a].
Proof. exact split_nul. Qed.
Print Assumptions C13_nul_truncates.
Example C13_nul_ex : split_csv_line (escape_for_csv [x61; x00; x62]) = Ok [[x61]].
Proof. vm_compute. reflexivity. Qed.

(** Splitting always succeeds on lines of bytes below 0x80. *)
Theorem C13_total_on_ascii : forall line, Forall ascii line -> exists cols, split_csv_line line = Ok cols.
Proof. exact split_total. Qed.
Print Assumptions C13_total_on_ascii.

(** On other bytes outside quotes the code calls isspace with a negative argument. *)
Theorem C13_high_byte_undefined_refuted : exists line, ~ In x00 line /\ split_csv_line line = UB.
Proof. exists [xc3; xa9]. split; [cbn; intuition discriminate|vm_compute; reflexivity]. Qed.
Print Assumptions C13_high_byte_undefined_refuted.

(** *** C14 *)

Theorem C14_server_roundtrip : forall ids content, Forall storable ids ->
  write_server_dataset true true ids = Ok content -> read_server_dataset (Some content) = Ok ids.
Proof. intros ids content H E. injection E as <-. apply server_roundtrip, H. Qed.
Print Assumptions C14_server_roundtrip.

Theorem C14_client_roundtrip : forall ids vals content,
  Forall storable ids -> Forall (fun v => 0 <= v < 2 ^ 63) vals ->
  write_client_dataset true true ids vals = Ok content -> read_client_dataset (Some content) = Ok (ids, vals).
Proof.
  intros ids vals content Hi Hv E. unfold write_client_dataset in E.
  destruct (Nat.eqb_spec (length vals) (length ids)) as [El|El]; [|discriminate]. cbn [negb] in E.
  assert (Ec : content = flat_map (fun iv => escape_for_csv (fst iv) ++ [comma] ++ dec (snd iv) ++ [newline]) (combine ids vals)) by congruence.
  rewrite Ec. pose proof (client_roundtrip (combine ids vals)) as R. etransitivity; [apply R|].
  - apply Forall_forall. intros [i v] Hin. rewrite Forall_forall in Hi, Hv. split.
    + apply Hi. eapply in_combine_l; exact Hin.
    + apply Hv. eapply in_combine_r; exact Hin.
  - f_equal. clear R E Ec. revert vals El Hv. clear. induction ids as [|i ids IH]; intros [|v vals] El Hv; try discriminate; [reflexivity|].
    cbn in *. injection El as El. inversion Hv; subst. specialize (IH vals El ltac:(assumption)). congruence.
Qed.
Print Assumptions C14_client_roundtrip.
Example C14_ex : let ids := [[x22; x2c]; []; [x20]] in let vals := [0; 2 ^ 63 - 1; 42] in
  Forall storable ids /\ exists content, write_client_dataset true true ids vals = Ok content /\
  read_client_dataset (Some content) = Ok (ids, vals).
Proof.
  split; [repeat constructor; cbn; intuition discriminate|]. eexists. split; [reflexivity|vm_compute; reflexivity].
Qed.

(** Writing fails exactly on size mismatch or I/O failure, and every failure is reported. *)
Theorem C14_write_reports : forall opens io_ok ids vals,
  (is_ok (write_server_dataset opens io_ok ids) = true <-> opens = true /\ io_ok = true) /\
  (is_ok (write_client_dataset opens io_ok ids vals) = true <-> length vals = length ids /\ opens = true /\ io_ok = true).
Proof.
  intros opens io_ok ids vals. unfold write_server_dataset, write_client_dataset.
  destruct (Nat.eqb_spec (length vals) (length ids)) as [E|E]; destruct opens, io_ok; cbn; intuition (try congruence; try tauto).
Qed.
Print Assumptions C14_write_reports.

(** A file that cannot be opened is an error, never an empty dataset; and only such a file or a bad line is. *)
Theorem C14_missing_file : read_server_dataset None = Err InvalidArgument /\ read_client_dataset None = Err InvalidArgument /\
  read_server_dataset (Some []) = Ok [] /\ read_client_dataset (Some []) = Ok ([], []).
Proof. repeat split; reflexivity. Qed.
Print Assumptions C14_missing_file.

(** Reading a server file is all or nothing: the rows of all lines, or INVALID_ARGUMENT because of some line. *)
Theorem C14_server_read_all_or_nothing : forall content, Forall ascii content ->
  (exists ids, read_server_dataset (Some content) = Ok ids /\
     Forall2 (fun line id => split_csv_line line = Ok [id]) (getlines content) ids) \/
  (read_server_dataset (Some content) = Err InvalidArgument /\
     exists line cols, In line (getlines content) /\ split_csv_line line = Ok cols /\ length cols <> 1%nat).
Proof.
  intros content Ha. unfold read_server_dataset.
  assert (Hl : Forall (Forall ascii) (getlines content)).
  { unfold getlines. assert (H : forall f cur, Forall ascii f -> Forall ascii cur -> Forall (Forall ascii) (getlines_acc cur f)).
    { clear. induction f as [|b f IH]; intros cur Hf Hc; cbn [getlines_acc].
      - destruct cur; constructor; [apply Forall_rev; assumption|constructor].
      - inversion Hf; subst. destruct (byte_eqb b newline); [constructor; [apply Forall_rev; assumption|apply IH; [assumption|constructor]]|].
        apply IH; [assumption|constructor; assumption]. }
    apply H; [exact Ha|constructor]. }
  destruct (mapM_first_failure parse_server_line (getlines content)) as [(ys & E & H)|(l1 & x & l2 & ys & E & H & Hx & _ & He & _)].
  - left. exists ys. split; [exact E|]. eapply Forall2_impl; [|exact H]. intros line id. unfold parse_server_line.
    destruct (split_csv_line line) as [cols|? | | |]; try discriminate. cbn [bind]. destruct cols as [|c [|? ?]]; congruence.
  - right. rewrite E in Hl. apply Forall_app in Hl. destruct Hl as [_ Hl]. inversion Hl as [|? ? Hlx _]; subst.
    destruct (split_total x Hlx) as [cols Ec]. unfold parse_server_line in Hx, He. rewrite Ec in Hx. cbn [bind] in Hx. split.
    + apply He. rewrite Ec. cbn [bind]. destruct cols as [|c [|? ?]]; [reflexivity|discriminate Hx|reflexivity].
    + exists x, cols. split; [rewrite E; apply in_app_iff; right; left; reflexivity|]. split; [exact Ec|].
      destruct cols as [|c [|? ?]]; [cbn; lia|discriminate Hx|cbn; lia].
Qed.
Print Assumptions C14_server_read_all_or_nothing.

(** [value_text v n] (S_Csv): the text v is a value column for n. *)
Theorem C14_client_read_all_or_nothing : forall content, Forall ascii content ->
  (exists rows, read_client_dataset (Some content) = Ok (map fst rows, map snd rows) /\
     Forall2 (fun line row => exists v, split_csv_line line = Ok [fst row; v] /\ value_text v (snd row)) (getlines content) rows) \/
  (read_client_dataset (Some content) = Err InvalidArgument /\
     exists line cols, In line (getlines content) /\ split_csv_line line = Ok cols /\
       ~ (exists id v n, cols = [id; v] /\ value_text v n)).
Proof.
  intros content Ha. unfold read_client_dataset.
  assert (Hl : Forall (Forall ascii) (getlines content)).
  { unfold getlines. assert (H : forall f cur, Forall ascii f -> Forall ascii cur -> Forall (Forall ascii) (getlines_acc cur f)).
    { clear. induction f as [|b f IH]; intros cur Hf Hc; cbn [getlines_acc].
      - destruct cur; constructor; [apply Forall_rev; assumption|constructor].
      - inversion Hf; subst. destruct (byte_eqb b newline); [constructor; [apply Forall_rev; assumption|apply IH; [assumption|constructor]]|].
        apply IH; [assumption|constructor; assumption]. }
    apply H; [exact Ha|constructor]. }
  destruct (mapM_first_failure parse_client_line (getlines content)) as [(ys & E & H)|(l1 & x & l2 & ys & E & H & Hx & _ & He & _)].
  - left. exists ys. rewrite E. split; [reflexivity|]. eapply Forall2_impl; [|exact H]. intros line [id n]. unfold parse_client_line.
    destruct (split_csv_line line) as [cols|? | | |]; try discriminate. cbn [bind]. destruct cols as [|c [|v [|? ?]]]; try congruence.
    destruct (simple_atoi64 v) as [m|] eqn:Ev; [|discriminate]. destruct (Z.ltb_spec m 0); [discriminate|].
    intros Eq. injection Eq as <- <-. exists v. cbn [fst snd]. split; [reflexivity|]. apply atoi_value_text. split; [exact Ev|assumption].
  - right. rewrite E in Hl. apply Forall_app in Hl. destruct Hl as [_ Hl]. inversion Hl as [|? ? Hlx _]; subst.
    destruct (split_total x Hlx) as [cols Ec].
    assert (Hp : parse_client_line x = Err InvalidArgument /\ ~ (exists id v n, cols = [id; v] /\ value_text v n)).
    { unfold parse_client_line in Hx |- *. rewrite Ec in Hx |- *. cbn [bind] in Hx |- *.
      destruct cols as [|c [|v [|? ?]]]; try (split; [reflexivity|intros (? & ? & ? & ? & _); discriminate]).
      destruct (simple_atoi64 v) as [m|] eqn:Ev.
      - destruct (Z.ltb_spec m 0); [|discriminate Hx]. split; [reflexivity|]. intros (i & w & n & Eq & Hw). apply atoi_value_text in Hw. destruct Hw as [Hw Hn]. injection Eq as <- <-.
        rewrite Ev in Hw. injection Hw as ->. lia.
      - split; [reflexivity|]. intros (i & w & n & Eq & Hw). apply atoi_value_text in Hw. destruct Hw as [Hw Hn]. injection Eq as <- <-. congruence. }
    destruct Hp as [Hp1 Hp2]. apply He in Hp1. rewrite Hp1. split; [reflexivity|].
    exists x, cols. split; [rewrite E; apply in_app_iff; right; left; reflexivity|]. split; [exact Ec|exact Hp2].
Qed.
Print Assumptions C14_client_read_all_or_nothing.
Example C14_value_text_ex : value_text [x20; x2b; x30; x37; x09] 7 /\ value_text [x2d; x30] 0 /\ ~ (exists n, value_text [x2b] n) /\ ~ (exists n, value_text [x35; x20; x35] n).
Proof.
  split; [apply atoi_value_text; vm_compute; intuition discriminate|]. split; [apply atoi_value_text; vm_compute; intuition discriminate|].
  split; intros (n & H); apply atoi_value_text in H; destruct H as [H _]; vm_compute in H; discriminate.
Qed.
Example C14_rejects_ex :
  read_client_dataset (Some [x61; x2c; x31; x0a; x62; x2c; x2d; x31; x0a]) = Err InvalidArgument /\
  read_server_dataset (Some [x61; x0a; x61; x2c; x62; x0a]) = Err InvalidArgument.
Proof. vm_compute. auto. Qed.

(** The lines read are the lines of the file. *)
Theorem C14_lines_are_the_file : forall f, exists last,
  (f = text_of (getlines f) /\ last = []) \/
  (last <> [] /\ ~ In x0a last /\ exists ls, getlines f = ls ++ [last] /\ f = text_of ls ++ last).
Proof. exact getlines_spec. Qed.
Print Assumptions C14_lines_are_the_file.

(** Without the guards the round trip fails: newline, NUL, negative value. *)
Theorem C14_unguarded_refuted :
  (exists ids content, write_server_dataset true true ids = Ok content /\ read_server_dataset (Some content) <> Ok ids /\
     is_ok (read_server_dataset (Some content)) = true) /\
  (exists ids vals content, Forall storable ids /\ write_client_dataset true true ids vals = Ok content /\
     read_client_dataset (Some content) = Err InvalidArgument).
Proof.
  split.
  - exists [[x61; x0a; x62]]. eexists. split; [reflexivity|]. vm_compute. split; [discriminate|reflexivity].
  - exists [[x61]], [-1]. eexists. split; [repeat constructor; cbn; intuition discriminate|]. split; [reflexivity|vm_compute; reflexivity].
Qed.
Print Assumptions C14_unguarded_refuted.

(** *** C15 *)

(** Sizes the documentation allows. *)
Theorem C15_illegal_sizes_rejected : forall rnd server_size client_size inter max_value,
  ~ (0 <= inter /\ inter <= server_size /\ inter <= client_size /\ 0 <= max_value /\ inter * max_value <= 2 ^ 63 - 1) ->
  generate_random_databases rnd server_size client_size inter max_value = Err InvalidArgument.
Proof. exact generate_illegal. Qed.
Print Assumptions C15_illegal_sizes_rejected.

(** For every draw: databases of the right sizes sharing enough identifiers, values below the bound, the right sum;
    the call goes wrong exactly when the true sum does not fit in int64. *)
Theorem C15_databases_consistent_partial : forall rnd server_size client_size inter max_value,
  0 <= inter -> inter <= server_size -> inter <= client_size -> 0 < max_value <= 2 ^ 63 - 1 ->
  inter * max_value <= 2 ^ 63 - 1 ->
  exists server client vals,
    length server = Z.to_nat server_size /\ length client = Z.to_nat client_size /\ length vals = Z.to_nat client_size /\
    share_at_least (Z.to_nat inter) server client /\
    Forall (fun v => 0 <= v < max_value) vals /\
    Forall random_id (server ++ client) /\
    generate_random_databases rnd server_size client_size inter max_value =
      (if sum_common server (combine client vals) <=? 2 ^ 63 - 1
       then Ok (server, (client, vals), sum_common server (combine client vals)) else UB).
Proof.
  intros rnd ss cs inter mv H1 H2 H3 H4 H5. destruct (generate_spec rnd ss cs inter mv) as (server & client & vals & G1 & G2 & G3 & G4 & G5 & G6 & G7); [|exact H4|].
  - unfold legal_sizes, int64_max. repeat split; lia.
  - exists server, client, vals. repeat (split; [assumption|]). split; [|exact G7]. eapply Forall_impl; [|exact G6]. intros id [Hl Ha]. split; [exact Hl|].
    eapply Forall_impl; [|exact Ha]. intros x Hx. apply alnum_letters, Hx.
Qed.
Print Assumptions C15_databases_consistent_partial.

(** The draw is not restricted further: every pair of databases of that shape, in every order, with every choice of values, is the result of some draw. *)
Theorem C15_every_database_possible : forall common only_server only_client server client vals max_value,
  Forall random_id (common ++ only_server ++ only_client) -> Permutation (common ++ only_server) server -> Permutation (common ++ only_client) client ->
  length vals = length client -> Forall (fun v => 0 <= v < max_value) vals -> 0 < max_value <= 2 ^ 63 - 1 ->
  Z.of_nat (length common) * max_value <= 2 ^ 63 - 1 -> sum_common server (combine client vals) <= 2 ^ 63 - 1 ->
  exists rnd, generate_random_databases rnd (Z.of_nat (length server)) (Z.of_nat (length client)) (Z.of_nat (length common)) max_value =
    Ok (server, (client, vals), sum_common server (combine client vals)).
Proof.
  intros common rs rc server client vals mv Hid Ps Pc Lv Hv Hm Hp Hs. apply (generate_reaches common rs rc); try assumption; try (unfold int64_max; lia).
  pose proof (Permutation_length Ps). pose proof (Permutation_length Pc). rewrite app_length in *. unfold legal_sizes, int64_max. repeat split; lia.
Qed.
Print Assumptions C15_every_database_possible.
Example C15_every_database_possible_ex : let id b := repeat b 32 in
  exists rnd, generate_random_databases rnd 2 3 1 10 = Ok ([id x61; id x41], ([id x7a; id x41; id x39], [9; 4; 7]), 4).
Proof.
  cbn zeta. destruct (C15_every_database_possible [repeat x41 32] [repeat x61 32] [repeat x7a 32; repeat x39 32] [repeat x61 32; repeat x41 32]
    [repeat x7a 32; repeat x41 32; repeat x39 32] [9; 4; 7] 10) as (rnd & E); try (cbn [length]; lia).
  - assert (H : forall b, letter_or_digit b -> random_id (repeat b 32)) by (intros b Hb; split; [apply repeat_length|]; apply Forall_forall; intros x Hx; apply repeat_spec in Hx; subst; exact Hb).
    cbn [app]. repeat (constructor; [apply H; unfold letter_or_digit; cbv; intuition discriminate|]). constructor.
  - apply perm_swap.
  - apply perm_swap.
  - repeat (constructor; [lia|]). constructor.
  - vm_compute. discriminate.
  - exists rnd. exact E.
Qed.

(** No overflow is possible when all client values together fit. *)
Theorem C15_no_overflow_when_small_partial : forall rnd server_size client_size inter max_value,
  0 <= inter -> inter <= server_size -> inter <= client_size -> 0 < max_value <= 2 ^ 63 - 1 ->
  client_size * (max_value - 1) <= 2 ^ 63 - 1 -> inter * max_value <= 2 ^ 63 - 1 ->
  exists server client vals,
    generate_random_databases rnd server_size client_size inter max_value =
      Ok (server, (client, vals), sum_common server (combine client vals)).
Proof.
  intros rnd ss cs inter mv H1 H2 H3 H4 H5 H6.
  destruct (C15_databases_consistent_partial rnd ss cs inter mv) as (server & client & vals & L1 & L2 & L3 & _ & Hv & _ & E); try assumption.
  exists server, client, vals. rewrite E.
  pose proof (sum_common_bound server (combine client vals) mv) as Hb.
  assert (Hf : Forall (fun r : bytes * Z => 0 <= snd r < mv) (combine client vals)).
  { apply Forall_forall. intros [i v] Hin. rewrite Forall_forall in Hv. apply Hv. eapply in_combine_r; exact Hin. }
  specialize (Hb Hf). rewrite combine_length in Hb.
  destruct (Z.leb_spec (sum_common server (combine client vals)) (2 ^ 63 - 1)); [reflexivity|].
  rewrite L2, L3, Nat.min_id, Z2Nat.id in Hb by lia. lia.
Qed.
Print Assumptions C15_no_overflow_when_small_partial.

Definition constant_random (v : Z) : db_random :=
  {| r_rand := fun _ => 0%nat; r_shuffle_server := fun _ => 0%nat; r_shuffle_client := fun _ => 0%nat; r_values := fun _ => v |}.
Definition counting_random : db_random :=
  {| r_rand := fun i => (i * 7 + i / 32)%nat; r_shuffle_server := fun i => (i * 3)%nat; r_shuffle_client := fun i => (i * 5 + 1)%nat;
     r_values := fun i => Z.of_nat i * 11 |}.
Example C15_ex :
  match generate_random_databases counting_random 4 3 2 10 with
  | Ok (server, (client, vals), sum) => vals = [0; 1; 2] /\ server <> client /\ sum = sum_common server (combine client vals)
  | _ => False
  end.
Proof. vm_compute. repeat split; discriminate. Qed.

(** The full property fails: legal sizes can overflow int64 when random identifiers collide, and a zero bound aborts. *)
Theorem C15_overflow_refuted : exists rnd,
  generate_random_databases rnd 1 3 0 (2 ^ 63 - 1) = UB.
Proof. exists (constant_random (2 ^ 62)). vm_compute. reflexivity. Qed.
Print Assumptions C15_overflow_refuted.

Theorem C15_zero_bound_refuted : forall rnd server_size client_size inter,
  0 <= inter -> inter <= server_size -> inter <= client_size -> 0 < client_size ->
  generate_random_databases rnd server_size client_size inter 0 = Crash.
Proof.
  intros rnd ss cs inter H1 H2 H3 H4. apply generate_crash; [|exact H4]. unfold legal_sizes, int64_max. repeat split; lia.
Qed.
Print Assumptions C15_zero_bound_refuted.

(** *** C16 *)

(** The segments of the result are the segments of the components in order: components are never glued together and
    nothing is lost. All bytes other than slashes are kept in order; the result is absolute (ends with a slash) exactly
    if the non-empty components start (end) so. The call never fails or writes outside its buffer. *)
Theorem C16_join_path : forall paths, exists out,
  join_path paths = Ok out /\
  segments out = flat_map segments paths /\
  filter (fun b => negb (byte_eqb b x2f)) out = filter (fun b => negb (byte_eqb b x2f)) (concat paths) /\
  hd_error out = hd_error (concat paths) /\
  (forall b, (exists t, out = t ++ [b]) <-> (exists t, concat paths = t ++ [b])) /\
  (Forall (fun p => ~ double_slash p) paths -> ~ double_slash out).
Proof.
  intros paths. destruct (join_path_inv paths) as (out & E & H). exists out. split; [exact E|].
  unfold join_inv in H. destruct H as (_ & He & Hs & Hf & Hh & _ & Hen & Hd).
  split; [exact Hs|]. split; [exact Hf|]. split; [|split; [|exact Hd]].
  - destruct Hh as [(b & t & -> & b' & t' & -> & ->)|Hn]; [reflexivity|]. rewrite Hn, (proj1 He Hn). reflexivity.
  - assert (Hlast : forall (x y : bytes), ends_slash x = ends_slash y ->
      filter not_slash x = filter not_slash y -> (x = [] <-> y = []) ->
      forall b, (exists t, x = t ++ [b]) -> exists t, y = t ++ [b]).
    { clear. intros x y H1 H2 H3 b [t ->].
      assert (Hy : y <> []) by (intros Hy; apply H3 in Hy; destruct t; discriminate).
      destruct (exists_last Hy) as (t' & b' & ->). exists t'. f_equal. f_equal.
      unfold ends_slash in H1. rewrite !rev_app_distr in H1. cbn [rev app] in H1.
      rewrite !filter_snoc in H2. unfold not_slash in H2. unfold slash in H1.
      destruct (byte_eqb b x2f) eqn:E1.
      - symmetry in H1. apply byte_eqb_eq in E1, H1. congruence.
      - rewrite <- H1 in H2. cbn [negb] in H2. apply app_inj_tail in H2. symmetry. tauto. }
    intros b. split; apply Hlast; auto; tauto.
Qed.
Print Assumptions C16_join_path.
Example C16_ex : join_path [[x2f; x61; x2f]; []; [x2f; x62]; [x63]; [x2f]; [x2f]; [x64]] = Ok [x2f; x61; x2f; x62; x2f; x63; x2f; x64].
Proof. vm_compute. reflexivity. Qed.
(* "a" "b" -> "a/b" *)
Example C16_ex2 : join_path [[x61]; [x62]] = Ok [x61; x2f; x62] /\ join_path [] = Ok [] /\ join_path [[]; []] = Ok [].
Proof. vm_compute. auto. Qed.
