(** Theorems about the tool that generates dummy datasets (C85). *)
From Coq Require Import Permutation.
From Verif Require Import Base M_BigNum M_RecordIO M_Shard M_Csv S_Csv L_Csv P_Csv M_Dummy S_Dummy L_Dummy
  M_EC L_EC L_Toy M_Num L_Num L_DJ M_Group S_Group P_Group M_Cipher S_Cipher M_Paillier S_Paillier P_Paillier M_Protocol S_Protocol L_Protocol P_Protocol.

(** Exit code 0: the request was legal, nothing went wrong, the two files hold datasets as requested, no other file changed, and
    the printed sum is the sum over the shared identifiers. *)
Theorem C85_exit_code_zero : forall rnd server_size client_size inter max_value server_file client_file ws wc d d' r,
  max_value <= 2 ^ 63 - 1 -> server_file <> client_file ->
  dummy_main rnd server_size client_size inter max_value server_file client_file ws wc d = (d', Ok r) ->
  ws = WGood /\ wc = WGood /\ server_file <> [] /\ client_file <> [] /\ 0 <= inter <= server_size /\ inter <= client_size /\
  exists server client vals,
    read_server_dataset (d' server_file) = Ok server /\ read_client_dataset (d' client_file) = Ok (client, vals) /\
    as_requested server_size client_size inter max_value server client vals /\
    rp_client r = client_size /\ rp_inter r = inter /\ rp_sum r = sum_common server (combine client vals) /\ 0 <= rp_sum r < 2 ^ 63 /\
    (forall name, name <> server_file -> name <> client_file -> d' name = d name).
Proof.
  intros rnd ss cs i m sf cf ws wc d d' r Hm Nf E. unfold dummy_main in E.
  destruct (generate_random_databases rnd ss cs i m) as [[[server [client vals]] sum]| | | |] eqn:G; try discriminate.
  destruct (generated _ _ _ _ _ _ _ _ _ Hm G) as (H1 & H2 & H3 & (A1 & A2 & A3 & A4 & A5 & A6) & Hs & Hs2).
  destruct (write_server_dataset _ _ server) as [c1| | | |] eqn:W1; try discriminate. injection E as <- E.
  destruct (write_client_dataset _ _ client vals) as [c2| | | |] eqn:W2; try discriminate. cbn [bind] in E. injection E as <-. cbn [rp_client rp_inter rp_sum after_write].
  assert (O1 : can_open sf ws = true /\ writes_well ws = true) by (apply (proj1 (C14_write_reports _ _ server vals)); rewrite W1; reflexivity).
  assert (O2 : length vals = length client /\ can_open cf wc = true /\ writes_well wc = true) by (apply (proj2 (C14_write_reports _ _ client vals)); rewrite W2; reflexivity).
  destruct O1 as [O1 O1'], O2 as (_ & O2 & O2'). rewrite O1, O1' in W1. rewrite O2, O2' in W2.
  destruct (can_open_good _ _ O1 O1') as [N1 ->], (can_open_good _ _ O2 O2') as [N2 ->].
  apply Forall_app in A6 as A6'. destruct A6' as [As Ac].
  assert (Ss : Forall storable server) by (eapply Forall_impl; [exact random_storable|exact As]).
  assert (Sc : Forall storable client) by (eapply Forall_impl; [exact random_storable|exact Ac]).
  assert (Hv : Forall (fun v => 0 <= v < 2 ^ 63) vals) by (eapply Forall_impl; [|exact A5]; cbn; intros; lia).
  do 6 (split; [first [assumption|reflexivity]|]). exists server, client, vals.
  rewrite (fs_set_other _ cf c2 sf Nf), !fs_set_same. split; [apply (C14_server_roundtrip _ _ Ss W1)|]. split; [apply (C14_client_roundtrip _ _ _ Sc Hv W2)|].
  split; [repeat split; assumption|]. do 3 (split; [first [reflexivity|exact Hs]|]). split; [|intros; rewrite !fs_set_other by assumption; reflexivity].
  split; [|lia]. rewrite Hs. clear -Hv. unfold sum_common.
  enough (F : forall l : list (bytes * Z), Forall (fun p => 0 <= snd p) l -> 0 <= fold_right Z.add 0 (map snd l)).
  { apply F. apply Forall_forall. intros p Hp. apply filter_In in Hp. destruct Hp as [Hp _]. destruct p as [x v]. apply in_combine_r in Hp. rewrite Forall_forall in Hv. apply Hv in Hp. cbn; lia. }
  induction l as [|p l IH]; intros F; inversion F; subst; cbn [map fold_right]; [lia|]. specialize (IH H2). lia.
Qed.
Print Assumptions C85_exit_code_zero.

(** A legal request whose values cannot overflow, on a working file system, is carried out. *)
Theorem C85_completes : forall rnd server_size client_size inter max_value server_file client_file d,
  0 <= inter -> inter <= server_size -> inter <= client_size -> 0 < max_value <= 2 ^ 63 - 1 ->
  inter * max_value <= 2 ^ 63 - 1 -> client_size * (max_value - 1) <= 2 ^ 63 - 1 -> server_file <> [] -> client_file <> [] ->
  exists d' r, dummy_main rnd server_size client_size inter max_value server_file client_file WGood WGood d = (d', Ok r).
Proof.
  intros rnd ss cs i m sf cf d H1 H2 H3 H4 H5 H6 N1 N2.
  destruct (C15_no_overflow_when_small_partial rnd ss cs i m H1 H2 H3 H4 H6 H5) as (s & c & v & G).
  destruct (generated _ _ _ _ _ _ _ _ _ (proj2 H4) G) as (_ & _ & _ & (A1 & A2 & A3 & _) & _).
  unfold dummy_main. rewrite G. rewrite !good_can_open by assumption. cbn [writes_well].
  destruct (write_server_dataset true true s) as [c1| | | |] eqn:W1;
    [|exfalso; pose proof (proj2 (proj1 (C14_write_reports true true s v)) (conj eq_refl eq_refl)) as F; rewrite W1 in F; discriminate F..].
  destruct (write_client_dataset true true c v) as [c2| | | |] eqn:W2;
    [|exfalso; pose proof (proj2 (proj2 (C14_write_reports true true c v)) (conj (eq_trans A3 (eq_sym A2)) (conj eq_refl eq_refl))) as F; rewrite W2 in F; discriminate F..].
  eexists. eexists. reflexivity.
Qed.
Print Assumptions C85_completes.

(** Exit code 1: an illegal request changes nothing, a failing write is reported, and files that were not named are never touched. *)
Theorem C85_exit_code_one : forall rnd server_size client_size inter max_value server_file client_file ws wc d,
  let (d', o) := dummy_main rnd server_size client_size inter max_value server_file client_file ws wc d in
  (forall name, name <> server_file -> name <> client_file -> d' name = d name) /\
  (~ (0 <= inter /\ inter <= server_size /\ inter <= client_size /\ 0 <= max_value /\ inter * max_value <= 2 ^ 63 - 1) ->
     d' = d /\ o = Err InvalidArgument) /\
  (ws = WNoOpen \/ server_file = [] -> d' = d /\ is_ok o = false) /\
  (ws <> WGood \/ wc <> WGood \/ server_file = [] \/ client_file = [] -> is_ok o = false).
Proof.
  intros rnd ss cs i m sf cf ws wc d. destruct (dummy_main _ _ _ _ _ _ _ _ _ _) as [d' o] eqn:E. unfold dummy_main in E.
  split; [|split; [|split]].
  - intros name N1 N2. destruct (generate_random_databases rnd ss cs i m) as [[[server [client vals]] sum]| | | |] eqn:G; try (injection E as <- <-; reflexivity).
    destruct (write_server_dataset _ _ server) as [c1|e| | |] eqn:W1; injection E as <- _; rewrite ?(after_write_other _ cf) by assumption; cbn [after_write]; rewrite ?fs_set_other by assumption; try reflexivity.
    exact (after_write_other d sf ws (Err e) name N1).
  - intros H. rewrite C15_illegal_sizes_rejected in E by exact H. injection E as <- <-. split; reflexivity.
  - intros H. destruct (generate_random_databases rnd ss cs i m) as [[[server [client vals]] sum]| | | |] eqn:G; try (injection E as <- <-; split; reflexivity).
    assert (O : can_open sf ws = false) by (destruct H as [->| ->]; [destruct sf; reflexivity|reflexivity]).
    unfold write_server_dataset in E. rewrite O in E. cbn [negb after_write] in E. injection E as <- <-. split; reflexivity.
  - intros H. destruct (generate_random_databases rnd ss cs i m) as [[[server [client vals]] sum]| | | |] eqn:G; try (injection E as <- <-; reflexivity).
    destruct (write_server_dataset _ _ server) as [c1|e| | |] eqn:W1; try (injection E as <- <-; reflexivity). injection E as _ <-.
    destruct (write_client_dataset _ _ client vals) as [c2|e| | |] eqn:W2; try reflexivity. exfalso.
    assert (O1 : can_open sf ws = true /\ writes_well ws = true) by (apply (proj1 (C14_write_reports _ _ server vals)); rewrite W1; reflexivity).
    assert (O2 : length vals = length client /\ can_open cf wc = true /\ writes_well wc = true) by (apply (proj2 (C14_write_reports _ _ client vals)); rewrite W2; reflexivity).
    destruct (can_open_good _ _ (proj1 O1) (proj2 O1)), (can_open_good _ _ (proj1 (proj2 O2)) (proj2 (proj2 O2))). tauto.
Qed.
Print Assumptions C85_exit_code_one.

(** The numbers printed by the tool are the numbers printed by the client program when it and the server run on the two files,
    provided the drawn identifiers that should differ do differ. *)
Theorem C85_client_prints_the_same : forall rnd server_size client_size inter max_value server_file client_file ws wc d d' r
  C X sqrt_p fuel is_safe_prime flag srt p q key_raw rp rq r1 r2 server client vals,
  max_value <= 2 ^ 63 - 1 -> server_file <> client_file ->
  dummy_main rnd server_size client_size inter max_value server_file client_file ws wc d = (d', Ok r) ->
  read_server_dataset (d' server_file) = Ok server -> read_client_dataset (d' client_file) = Ok (client, vals) ->
  Z.of_nat (distinct (server ++ client)) = server_size + client_size - inter ->
  ec_laws C -> sqrt_ok (ec_p C) sqrt_p -> sorts srt ->
  safe_prime p -> safe_prime q -> p <> q -> is_safe_prime p = true -> is_safe_prime q = true -> small_generator p -> small_generator q ->
  Forall (fun v => v < (p * q) ^ 2) vals -> rp_sum r < (p * q) ^ 2 ->
  Forall (fun x => exists P, hash_to_curve C sqrt_p 256 (sha256 X) fuel x = Ok P) (client ++ server) -> hash_injective_on C X sqrt_p fuel (client ++ server) ->
  (exists i, In i (sr_gen r2) /\ Z.gcd (i mod (p * q)) (p * q) = 1) ->
  execute C X sqrt_p fuel is_safe_prime flag srt (d' client_file) (d' server_file) p q key_raw rp rq r1 r2 NoFault NoFault = Ok (rp_inter r, rp_sum r).
Proof.
  intros rnd ss cs i m sf cf ws wc d d' r C X sq fuel isp flag srt p q kr rp rq r1 r2 server client vals Hm Nf E R1 R2 Hd L Hsq Hs Hp Hq Npq Ip Iq Gp Gq Hn Hn2 Hh Hinj Hr2.
  destruct (C85_exit_code_zero _ _ _ _ _ _ _ _ _ _ _ _ Hm Nf E) as (-> & -> & N1 & N2 & Hi & Hi2 & server' & client' & vals' & R1' & R2' & (A1 & A2 & A3 & A4 & A5 & A6) & P1 & P2 & P3 & P4 & _).
  rewrite R1 in R1'. rewrite R2 in R2'. injection R1' as <-. injection R2' as <- <-.
  apply Forall_app in A6 as A6'. destruct A6' as [As Ac].
  assert (Ss : Forall storable server) by (eapply Forall_impl; [exact random_storable|exact As]).
  assert (Sc : Forall storable client) by (eapply Forall_impl; [exact random_storable|exact Ac]).
  assert (Hv : Forall (fun v => 0 <= v < 2 ^ 63) vals) by (eapply Forall_impl; [|exact A5]; cbn; intros; lia).
  assert (Hl : length vals = length client) by congruence.
  assert (Er : map fst (combine client vals) = client).
  { clear -Hl. revert vals Hl. induction client as [|x l IH]; intros [|v vs] Hl; try reflexivity; try discriminate. cbn [combine map fst]. f_equal. apply IH. injection Hl as Hl. exact Hl. }
  destruct (no_collision (Z.to_nat i) server client (combine client vals) Er A4) as (ND1 & ND2 & Hc); [lia|].
  destruct (write_server_dataset true true server) as [c1| | | |] eqn:W1;
    [|exfalso; pose proof (proj2 (proj1 (C14_write_reports true true server vals)) (conj eq_refl eq_refl)) as F; rewrite W1 in F; discriminate F..].
  destruct (write_client_dataset true true client vals) as [c2| | | |] eqn:W2;
    [|exfalso; pose proof (proj2 (proj2 (C14_write_reports true true client vals)) (conj Hl (conj eq_refl eq_refl))) as F; rewrite W2 in F; discriminate F..].
  rewrite common_sum in P3.
  assert (X1 : execute C X sq fuel isp flag srt (Some c2) (Some c1) p q kr rp rq r1 r2 NoFault NoFault = Ok (rp_inter r, rp_sum r)).
  { rewrite (C56_written_files C X sq fuel isp flag srt client vals server c2 c1 p q kr rp rq r1 r2); try assumption.
    - rewrite <- P3, Hc, P2, Z2Nat.id by lia. destruct (rp_sum r <? 2 ^ 64) eqn:Q; [reflexivity|]. apply Z.ltb_ge in Q. lia.
    - rewrite <- P3. exact Hn2. }
  rewrite <- X1. unfold execute. rewrite R1, R2, (C14_client_roundtrip _ _ _ Sc Hv W2), (C14_server_roundtrip _ _ Ss W1). reflexivity.
Qed.
Print Assumptions C85_client_prints_the_same.

(** A run of the tool for the examples: constant identifiers "111...1" when [k] is constant, different ones otherwise. *)
Definition dummy_rand (k : nat -> nat) : db_random :=
  {| r_rand := k; r_shuffle_server := fun i => i; r_shuffle_client := fun _ => 0%nat; r_values := fun i => Z.of_nat i + 40 |}.
Definition dummy_ids (i : nat) : nat := Nat.div i 32.
Definition no_files : fs := fun _ => None.
Definition dummy_demo ss cs i := dummy_main (dummy_rand dummy_ids) ss cs i 100 [x73] [x63] WGood WGood no_files.
Definition dummy_execute ss cs i := let (d, _) := dummy_demo ss cs i in
  execute toy spread_ext toy_sqrt 20 ex_safe false isort (d [x63]) (d [x73]) 23 47 11 (fun i => Z.of_nat i + 3) (fun i => Z.of_nat i * 2 + 5) (demo_rand 29) (demo_rand 31) NoFault NoFault.
Example C85_ex :
  snd (dummy_demo 3 2 1) = Ok (Report 2 2 1 41) /\
  match read_server_dataset (fst (dummy_demo 3 2 1) [x73]), read_client_dataset (fst (dummy_demo 3 2 1) [x63]) with
  | Ok s, Ok (c, v) => length s = 3%nat /\ v = [40; 41] /\ distinct (s ++ c) = 4%nat | _, _ => False end /\
  dummy_execute 3 2 1 = Ok (1, 41).
Proof. vm_compute. repeat split. Qed.

(** ** What is printed or left behind can mislead *)

(** The size printed for the server dataset is the size of the client dataset (the flag client_data_size is printed twice). *)
Theorem C85_printed_server_size_refuted :
  (forall rnd server_size client_size inter max_value server_file client_file ws wc d d' r,
     dummy_main rnd server_size client_size inter max_value server_file client_file ws wc d = (d', Ok r) -> rp_server r = client_size) /\
  exists rnd d' r server, dummy_main rnd 3 2 1 100 [x73] [x63] WGood WGood no_files = (d', Ok r) /\
    read_server_dataset (d' [x73]) = Ok server /\ rp_server r <> Z.of_nat (length server).
Proof.
  split.
  - intros rnd ss cs i m sf cf ws wc d d' r E. unfold dummy_main in E.
    destruct (generate_random_databases rnd ss cs i m) as [[[server [client vals]] sum]| | | |]; try discriminate.
    destruct (write_server_dataset _ _ server); try discriminate. injection E as _ E.
    destruct (write_client_dataset _ _ client vals); try discriminate. injection E as <-. reflexivity.
  - exists (dummy_rand dummy_ids). eexists. eexists. eexists. split; [reflexivity|]. split; [vm_compute; reflexivity|]. vm_compute. discriminate.
Qed.
Print Assumptions C85_printed_server_size_refuted.

(** The printed intersection size is the requested one even if identifiers drawn at random coincide. *)
Theorem C85_printed_intersection_refuted : exists rnd d' r server client vals,
  dummy_main rnd 1 1 0 100 [x73] [x63] WGood WGood no_files = (d', Ok r) /\
  read_server_dataset (d' [x73]) = Ok server /\ read_client_dataset (d' [x63]) = Ok (client, vals) /\
  rp_inter r <> Z.of_nat (length (common (combine client vals) server)).
Proof.
  exists (dummy_rand (fun _ => 0%nat)). do 5 eexists. split; [reflexivity|]. split; [vm_compute; reflexivity|]. split; [vm_compute; reflexivity|].
  vm_compute. discriminate.
Qed.
Print Assumptions C85_printed_intersection_refuted.

(** Naming the same file twice is not noticed: exit code 0, and the server dataset is lost. *)
Theorem C85_same_file_refuted : exists rnd d' r,
  dummy_main rnd 3 2 1 100 [x73] [x73] WGood WGood no_files = (d', Ok r) /\ read_server_dataset (d' [x73]) = Err InvalidArgument.
Proof. exists (dummy_rand dummy_ids). do 2 eexists. split; [reflexivity|]. vm_compute. reflexivity. Qed.
Print Assumptions C85_same_file_refuted.

(** A failing run is not all or nothing: the server file is new and the client file still the one of an earlier run, although
    both read well and the exit code is 1. *)
Theorem C85_all_or_nothing_refuted : exists rnd1 rnd2 d1 d2 r e server1 server2 client vals,
  dummy_main rnd1 1 1 1 100 [x73] [x63] WGood WGood no_files = (d1, Ok r) /\
  dummy_main rnd2 1 1 1 100 [x73] [x63] WGood WNoOpen d1 = (d2, Err e) /\
  read_server_dataset (d1 [x73]) = Ok server1 /\ read_client_dataset (d1 [x63]) = Ok (client, vals) /\
  read_server_dataset (d2 [x73]) = Ok server2 /\ read_client_dataset (d2 [x63]) = Ok (client, vals) /\
  common (combine client vals) server1 <> [] /\ common (combine client vals) server2 = [].
Proof.
  exists (dummy_rand (fun _ => 0%nat)), (dummy_rand (fun _ => 1%nat)). do 8 eexists. split; [reflexivity|]. split; [reflexivity|].
  do 4 (split; [vm_compute; reflexivity|]). split; [vm_compute; discriminate|vm_compute; reflexivity].
Qed.
Print Assumptions C85_all_or_nothing_refuted.
