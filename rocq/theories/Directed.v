(** The repository's directed tests of one cache, under every schedule. *)
From Coq Require Import Arith NArith List Bool Lia.
From Verif Require Import Bits Params ParamsProofs Msg Rtl Mem Spec System Traffic Harness SysProofs Facts1 Facts3 Progress Crash
  FlModel Bench Conform ConformData LiveSpec Live Proto.
Import ListNotations.
Open Scope N_scope.

(** The response of one request: echoed type, opaque and length, hit bit of the
    pseudo-LRU cache (C03), data of flat memory (C01). *)
Definition answer (r : creq) (t d : N) : cresp := mkCResp (cq_type r) (cq_opq r) t (cq_len r) d.
Fixpoint answers (rs : list creq) (ts ds : list N) : list cresp :=
  match rs, ts, ds with r :: rs, t :: ts, d :: ds => answer r t d :: answers rs ts ds | _, _, _ => [] end.
(** What a test should answer *)
Definition should (p : params) (m : mem) (rs : list creq) : list cresp :=
  answers rs (lru_tests p lru_empty rs) (flat_data p m rs).

Lemma answers_data : forall rs ts ds, length ts = length rs -> length ds = length rs -> map cr_data (answers rs ts ds) = ds.
Proof. induction rs as [|r rs IH]; intros [|t ts] [|d ds] A B; cbn in *; try discriminate; auto. f_equal. apply IH; lia. Qed.
Lemma answers_test : forall rs ts ds, length ts = length rs -> length ds = length rs -> map cr_test (answers rs ts ds) = ts.
Proof. induction rs as [|r rs IH]; intros [|t ts] [|d ds] A B; cbn in *; try discriminate; auto. f_equal. apply IH; lia. Qed.
Lemma answers_echo : forall rs ts ds, length ts = length rs -> length ds = length rs ->
  map (fun y => (cr_type y, cr_opq y, cr_len y)) (answers rs ts ds) = map (fun r => (cq_type r, cq_opq r, cq_len r)) rs.
Proof. induction rs as [|r rs IH]; intros [|t ts] [|d ds] A B; cbn in *; try discriminate; auto. f_equal. apply IH; lia. Qed.
Lemma answers_len : forall rs ts ds, length ts = length rs -> length ds = length rs -> length (answers rs ts ds) = length rs.
Proof. induction rs as [|r rs IH]; intros [|t ts] [|d ds] A B; cbn in *; try discriminate; auto. Qed.
Lemma flat_data_len : forall p rs m, length (flat_data p m rs) = length rs.
Proof. induction rs as [|r rs IH]; intros m; cbn; auto. Qed.

Lemma pre_eq : forall T (l a b : list T) k, l = a ++ b -> length a = k -> firstn k l = a.
Proof. intros T l a b k -> <-. rewrite firstn_app, firstn_all, Nat.sub_diag, firstn_O. apply app_nil_r. Qed.

Section D.
Variable p : params.
Hypothesis W : wf_params p.

Lemma should_pre : forall m A B, exists rest, should p m (A ++ B) = should p m A ++ rest.
Proof.
  intros m A B. unfold should. rewrite lru_tests_app, flat_data_app.
  set (tb := lru_tests p (lru_run p lru_empty A) B). set (db := flat_data p (flat_mem p m A) B). clearbody tb db.
  pose proof (lru_tests_len p A lru_empty) as L1. pose proof (flat_data_len p A m) as L2.
  generalize dependent (lru_tests p lru_empty A). generalize dependent (flat_data p m A).
  induction A as [|r A IH]; intros [|d ds] LD [|t ts] LT; try discriminate.
  - cbn [app answers]. eauto.
  - cbn [length] in *. injection LD as LD. injection LT as LT. destruct (IH ds LD ts LT) as [rest E].
    exists rest. cbn [app answers]. rewrite E. auto.
Qed.

Lemma accepted_wf : forall s0 is m0 m rq rs, sys_run p s0 is m0 m rq rs -> Forall (wf_req p) (accepted (trace_of p s0 is)).
Proof.
  intros s0 is m0 m rq rs R. destruct R as (_ & CO & _). unfold client_ok in CO. unfold accepted.
  induction CO as [|io l H CO IH]; cbn [flat_map]; auto. apply Forall_app. split; auto.
  destruct (i_req_en (fst io)) eqn:E; auto. constructor; auto. apply H; auto.
Qed.
(** C01, C02 and C03 together: the responses are a prefix of [should]. *)
Lemma run_should : forall s0 is m0 m rq rs, sys_run p s0 is m0 m rq rs ->
  let tr := trace_of p s0 is in exists rest, should p m0 (accepted tr) = responses tr ++ rest.
Proof.
  intros s0 is m0 m rq rs R tr.
  destruct (sys_flat p W _ _ _ _ _ _ R) as (r1 & F1). destruct (sys_echo p W _ _ _ _ _ _ R) as (r2 & F2).
  destruct (sys_tests p W _ _ _ _ _ _ R) as (r3 & F3). fold tr in F1, F2, F3.
  set (A := accepted tr) in *. set (Y := responses tr) in *. clearbody A Y.
  pose proof (lru_tests_len p A lru_empty) as L1. pose proof (flat_data_len p A m0) as L2.
  pose proof (answers_data A _ _ L1 L2) as D1. pose proof (answers_test A _ _ L1 L2) as D2. pose proof (answers_echo A _ _ L1 L2) as D3.
  unfold should. set (S := answers A _ _) in *. exists (skipn (length Y) S).
  rewrite <- (firstn_skipn (length Y) S) at 1. f_equal. apply resp_ext.
  - rewrite <- firstn_map, D1. apply (pre_eq _ _ _ _ _ F1). apply map_length.
  - rewrite <- firstn_map, D2. apply (pre_eq _ _ _ _ _ F3). apply map_length.
  - rewrite <- firstn_map, D3. apply (pre_eq _ _ _ _ _ F2). apply map_length.
Qed.
(** So a test whose table lists what [should] says passes under every schedule. *)
Lemma should_passes : forall init xs, p_abw p = 32 ->
  Forall (wf_req p) (map fst xs) -> should p (load_words init) (map fst xs) = map snd xs -> passes p init xs.
Proof.
  intros init xs A32 WX E s0 is m0 m rq rs R M0 [B EA].
  destruct (run_should _ _ _ _ _ _ R) as (r1 & E1). set (A := accepted (trace_of p s0 is)) in *.
  destruct (should_pre m0 A B) as (r2 & E2). rewrite <- EA in E2. rewrite E1, <- app_assoc in E2.
  assert (X : should p m0 (map fst xs) = should p (load_words init) (map fst xs)).
  { unfold should. f_equal. apply flat_data_ext; auto. intros a AA. apply M0. rewrite <- A32. auto. }
  rewrite X, E in E2. eauto.
Qed.
End D.

(** ** The tables *)
Definition wf_paramsb (p : params) : bool :=
  ((p_assoc p =? 1) || (p_assoc p =? 2)) && ((p_dbw p =? 32) || (p_dbw p =? 64) || (p_dbw p =? 128)) && (p_dbw p <=? p_clw p) &&
  (p_clw p =? 2 ^ N.log2 (p_clw p)) && (6 <=? N.log2 (p_clw p)) &&
  (1 <=? N.log2 (p_num_bytes p * 8 / (p_clw p * p_assoc p))) &&
  (p_num_bytes p * 8 =? p_clw p * (p_assoc p * 2 ^ N.log2 (p_num_bytes p * 8 / (p_clw p * p_assoc p)))) && (offw p + idxw p <? p_abw p).
Lemma wf_paramsb_ok : forall p, wf_paramsb p = true -> wf_params p.
Proof.
  intros p H. unfold wf_paramsb in H. repeat (apply andb_prop in H; destruct H as [H ?]).
  repeat match goal with h : (_ =? _) = true |- _ => apply N.eqb_eq in h | h : (_ <=? _) = true |- _ => apply N.leb_le in h
    | h : (_ <? _) = true |- _ => apply N.ltb_lt in h end.
  constructor; auto.
  - apply orb_prop in H. destruct H as [H|H]; apply N.eqb_eq in H; auto.
  - eauto.
  - match goal with h : (_ || _) = true |- _ => apply orb_prop in h; destruct h as [h|h]; [apply orb_prop in h; destruct h as [h|h]|]; apply N.eqb_eq in h; auto end.
  - eauto.
Qed.

(** The tests of the single-cache tables, and those among them whose requests are all
    supported ones (the others use WRITE_INIT, or a WRITE of 16 bytes). *)
Definition all_tests : list dtest := tests_GenericTestCases ++ tests_AmoTests ++ tests_InvFlushTests ++ tests_OtherCiferTests ++ tests_unused.
Definition supported (t : dtest) : bool := forallb (fun x => wf_reqb (t_p t) (fst x)) (t_msgs t).
Definition test_good (t : dtest) : bool :=
  wf_paramsb (t_p t) && (p_abw (t_p t) =? 32) &&
  resps_eqb (should (t_p t) (load_words (t_mem t)) (map fst (t_msgs t))) (map snd (t_msgs t)).
Lemma tests_good : forallb (fun t => implb (supported t) (test_good t)) all_tests = true.
Proof. vm_compute. reflexivity. Qed.
Lemma resps_eqb_ok : forall a b, resps_eqb a b = true -> a = b.
Proof.
  induction a as [|x a IH]; intros [|y b] H; cbn in H; try discriminate; auto.
  apply andb_prop in H. destruct H as [H E]. f_equal; auto. unfold resp_eqb in H.
  repeat (apply andb_prop in H; destruct H as [H ?]). destruct x, y. cbn in *.
  repeat match goal with h : (_ =? _) = true |- _ => apply N.eqb_eq in h end. congruence.
Qed.
Lemma test_facts : forall t, In t all_tests -> Forall (wf_req (t_p t)) (map fst (t_msgs t)) ->
  supported t = true -> wf_params (t_p t) /\ passes (t_p t) (t_mem t) (t_msgs t).
Proof.
  intros t I WX S. pose proof tests_good as F. rewrite forallb_forall in F. specialize (F t I). rewrite S in F. cbn [implb] in F.
  unfold test_good in F. apply andb_prop in F. destruct F as [F E]. apply andb_prop in F. destruct F as [F A].
  apply wf_paramsb_ok in F. apply N.eqb_eq in A. apply resps_eqb_ok in E. split; auto. apply should_passes; auto.
Qed.
Lemma wf_reqb_complete : forall p r, wf_req p r -> wf_reqb p r = true.
Proof.
  intros p r H. unfold wf_reqb.
  repeat rewrite ?andb_true_iff, ?orb_true_iff, ?N.eqb_eq, ?N.ltb_lt, ?N.leb_le.
  unfold wf_req, wf_read, wf_write, wf_amo, pow2_size in H. tauto.
Qed.
Lemma wf_supported : forall t, Forall (wf_req (t_p t)) (map fst (t_msgs t)) -> supported t = true.
Proof.
  intros t F. unfold supported. apply forallb_forall. intros x I. apply wf_reqb_complete.
  rewrite Forall_forall in F. apply F. apply in_map. auto.
Qed.
Theorem directed_passes : forall t, In t all_tests -> Forall (wf_req (t_p t)) (map fst (t_msgs t)) ->
  passes (t_p t) (t_mem t) (t_msgs t).
Proof. intros t I F. exact (proj2 (test_facts t I F (wf_supported t F))). Qed.

(** The source does not decline and memory and sink are ready often enough: all the expected responses arrive. *)
Theorem directed_finish : forall t, In t all_tests -> Forall (wf_req (t_p t)) (map fst (t_msgs t)) ->
  let p := t_p t in let total := length (t_msgs t) in
  forall s0 is is2 m0 m rq rs, sys_run p s0 (is ++ is2) m0 m rq rs ->
  (forall a, a < 2 ^ 32 -> trunc 8 (m0 a) = trunc 8 (load_words (t_mem t) a)) ->
  (exists rest, map fst (t_msgs t) = accepted (trace_of p s0 (is ++ is2)) ++ rest) ->
  (total * (2 * N.to_nat (5 * total_lines p + 3) + 1) <= offer_cycles total [] (trace_of p s0 is))%nat ->
  (2 * N.to_nat (5 * total_lines p + 3) <= productive_cycles (trace_of p s0 is) (trace_of p (fst (run p s0 is)) is2))%nat ->
  responses (trace_of p s0 (is ++ is2)) = map snd (t_msgs t).
Proof.
  intros t I F p total s0 is is2 m0 m rq rs R M0 A O C.
  pose proof (wf_supported t F) as S. destruct (test_facts t I F S) as [W P].
  destruct (P s0 (is ++ is2) m0 m rq rs R M0 A) as [rest E].
  pose proof (proto_completes p W total is is2 s0 (sys_proto p _ _ _ _ _ _ R) O C) as L.
  pose proof (f_equal (@length _) E) as EL. rewrite app_length, map_length in EL. fold p total in EL.
  destruct rest; [rewrite app_nil_r in E; auto|]. cbn [length] in EL. lia.
Qed.
