(** C61 lifted to executions of the cache. *)
From Coq Require Import Arith NArith List Bool Lia.
From Verif Require Import Bits Params Msg Units Rtl Mem Spec System Tl ParamsProofs RtlLemmas RefineInv RefineStall RefineProofs
  ViewDefs ViewProofs SysProofs SysFacts Facts1 Facts2 Traffic MetaProofs PendProofs TrafProofs Facts3 Hide Proto LiveMulti MultiSys TimeSpec Service Service2 ExactSpec Exact.
Import ListNotations.
Open Scope N_scope.

Section F.
Variable p : params.
Hypothesis W : wf_params p.

Lemma x_run_app : forall R R' x, x_run p x (R ++ R') = x_run p x R ++ x_run p (x_after p x R) R'.
Proof. induction R as [|r R IH]; intros R' x; cbn [app x_run x_after]; auto. rewrite IH. auto. Qed.
Lemma x_after_app : forall R R' x, x_after p x (R ++ R') = x_after p (x_after p x R) R'.
Proof. induction R as [|r R IH]; intros R' x; cbn [app x_after]; auto. Qed.
Lemma x_run_len : forall R x, length (x_run p x R) = length R.
Proof. induction R; intros; cbn [x_run length]; auto. Qed.

Lemma shape_match : forall r g g', Forall2 (mreq_match r) g g' -> map shape_of g' = map shape_of g.
Proof.
  intros r g g'. induction 1 as [|e q g g' (E1 & E2 & E3 & E4 & _) F IH]; auto. cbn [map]. rewrite IH. unfold shape_of. rewrite E1, E2, E3, E4. auto.
Qed.
Lemma qmatch_match : forall r l S, Forall2 qmatch (map (pair r) l) S -> Forall2 (mreq_match r) l S.
Proof. intros r l. induction l as [|e l IH]; intros S F; inversion F; subst; constructor; auto. Qed.

Theorem hist_exact : forall m0 A c m Y Q, hist p m0 A c m Y Q -> forall S, Forall2 qmatch Q S ->
  xrel p (x_after p x_empty A) c /\ map shape_of S = concat (predict p A).
Proof.
  intros m0 A c m Y Q H. induction H as [c CS | A c m Y Q r H IH WF]; intros S F.
  - inversion F; subst. destruct CS as [C1 C2]. split; auto. apply xrel_init; auto.
  - apply Forall2_app_inv_l in F. destruct F as (S1 & S2 & F1 & F2 & ->).
    destruct (IH S1 F1) as [X E]. apply qmatch_match in F2.
    destruct (hist_flat p W _ _ _ _ _ _ H) as (I & _).
    destruct (xstep p W _ c m r X I WF) as [X1 X2].
    rewrite x_after_app. cbn [x_after]. split; auto.
    rewrite map_app, E, (shape_match _ _ _ F2), X1. unfold predict. rewrite x_run_app, concat_app. cbn [x_run concat]. rewrite app_nil_r. auto.
Qed.

Theorem sys_exact : forall s0 is m0 m rq rs, sys_run p s0 is m0 m rq rs ->
  let tr := trace_of p s0 is in
  (exists rest, concat (predict p (accepted tr)) = map shape_of (memreqs tr) ++ rest) /\
  (exists mid, map shape_of (memreqs tr) = concat (firstn (length (responses tr)) (predict p (accepted tr))) ++ mid).
Proof.
  intros s0 is m0 m rq rs R tr. destruct (sys_state p W _ _ _ _ _ _ R) as (a & ST).
  destruct (stok_J p _ _ _ _ _ _ _ _ ST) as [JJ _].
  destruct (J_hist p _ _ _ _ _ _ _ _ JJ) as (A0 & c & mb & Q & pd & H & _ & _ & C). fold tr in H, C.
  pose proof (hist_length p _ _ _ _ _ _ H) as HL. rewrite app_length in HL.
  destruct C as [(E & _ & _ & _ & _ & F) | (r & ex & qs & todo & out & l & E & WF & _ & TR & _ & _ & _ & _ & F)]; rewrite E.
  - destruct (hist_exact _ _ _ _ _ _ H _ F) as (_ & ->). split; [exists []; rewrite app_nil_r; auto|].
    exists (concat (skipn (length (responses tr)) (predict p A0))). rewrite <- concat_app, firstn_skipn. auto.
  - apply Forall2_app_inv_l in F. destruct F as (S1 & S2 & F1 & F2 & ES). apply qmatch_match in F2.
    destruct (hist_flat p W _ _ _ _ _ _ H) as (I & _).
    destruct (hist_exact _ _ _ _ _ _ H _ F1) as (X & E1). destruct (xstep p W _ c mb r X I WF) as [X1 _].
    rewrite ES, map_app, E1, (shape_match _ _ _ F2).
    assert (PR : predict p (A0 ++ [r]) = predict p A0 ++ [map shape_of (ex ++ qs) ++ map shape_of todo]).
    { unfold predict. rewrite x_run_app. cbn [x_run]. rewrite <- X1, TR, app_assoc, (map_app _ (ex ++ qs)). auto. }
    rewrite PR. split.
    + exists (map shape_of todo). rewrite concat_app. cbn [concat]. rewrite app_nil_r, <- app_assoc. auto.
    + exists (concat (skipn (length (responses tr)) (predict p A0)) ++ map shape_of (ex ++ qs)).
      rewrite firstn_app. unfold predict at 3. rewrite x_run_len.
      replace (length (responses tr) - length A0)%nat with 0%nat by lia. cbn [firstn]. rewrite app_nil_r, app_assoc, <- concat_app, firstn_skipn. auto.
Qed.

Lemma shape_hide : forall q, shape_of (hide_mreq q) = shape_of q.
Proof. reflexivity. Qed.

Theorem proto_exact_traffic : forall s0 is, proto_run p s0 is ->
  let tr := trace_of p s0 is in
  (exists rest, concat (predict p (accepted tr)) = map shape_of (memreqs tr) ++ rest) /\
  (exists mid, map shape_of (memreqs tr) = concat (firstn (length (responses tr)) (predict p (accepted tr))) ++ mid).
Proof.
  intros s0 is P tr. destruct (proto_same p is s0 (fun _ => 0) P) as (is' & m & S & _ & AC & HR & HM & _).
  pose proof (sys_exact _ _ _ _ _ _ S) as H. cbv zeta in H. apply (f_equal (@length _)) in HR. rewrite !map_length in HR.
  fold tr in AC, HR, HM. rewrite AC, HR in H. rewrite (map_hide _ _ _ shape_of _ _ shape_hide HM) in H. auto.
Qed.

(** When everything is answered, the prediction is what happened. *)
Theorem proto_exact_done : forall s0 is, proto_run p s0 is ->
  let tr := trace_of p s0 is in length (responses tr) = length (accepted tr) ->
  map shape_of (memreqs tr) = concat (predict p (accepted tr)).
Proof.
  intros s0 is P tr L. destruct (proto_exact_traffic s0 is P) as [(rest & E1) (mid & E2)]. fold tr in E1, E2.
  rewrite L in E2. rewrite <- (x_run_len (accepted tr) x_empty) in E2. fold (predict p (accepted tr)) in E2. rewrite firstn_all in E2.
  assert (Z : mid = []).
  { apply (f_equal (@length _)) in E1, E2. rewrite app_length in E1, E2. destruct mid; auto. cbn in E2. lia. }
  subst mid. rewrite app_nil_r in E2. auto.
Qed.

(** Neither the data nor the opaque fields matter. *)
Lemma x_step_addr : forall x r r', cq_type r = cq_type r' -> cq_addr r = cq_addr r' -> cq_len r = cq_len r' -> x_step p x r = x_step p x r'.
Proof. intros x r r' E1 E2 E3. unfold x_step, mark, req_bytes. rewrite E1, E2, E3. auto. Qed.
Lemma predict_addr : forall R R', map addr_of R = map addr_of R' -> predict p R = predict p R'.
Proof.
  unfold predict. generalize x_empty. intros x R. revert x. induction R as [|r R IH]; intros x [|r' R'] E; try discriminate E; auto.
  cbn [map] in E. inversion E as [[E1 E2 E3 E4]]. cbn [x_run]. rewrite (x_step_addr x r r'), (IH _ R') by auto. auto.
Qed.

(** Two executions of the same program. *)
Theorem proto_same_traffic : forall s0 is s0' is', proto_run p s0 is -> proto_run p s0' is' ->
  let tr := trace_of p s0 is in let tr' := trace_of p s0' is' in
  map addr_of (accepted tr) = map addr_of (accepted tr') ->
  length (responses tr) = length (accepted tr) -> length (responses tr') = length (accepted tr') ->
  map shape_of (memreqs tr) = map shape_of (memreqs tr').
Proof.
  intros s0 is s0' is' P P' tr tr' E L L'. unfold tr, tr' in *. rewrite (proto_exact_done _ _ P L), (proto_exact_done _ _ P' L').
  rewrite (predict_addr _ _ E). auto.
Qed.

(** *** The exact time, computed from the program *)
Lemma accept_exact : forall m0 s n m rq rs tr a r, stok p m0 s n m rq rs tr a -> a_cur a = Some (mkCur r (tl_reqs p (a_c a) r) [] 0) ->
  exists A0, accepted tr = A0 ++ [r] /\ map shape_of (tl_reqs p (a_c a) r) = fst (x_step p (x_after p x_empty A0) r).
Proof.
  intros m0 s n m rq rs tr a r ST CU. destruct (stok_J p _ _ _ _ _ _ _ _ ST) as [JA _].
  destruct (J_hist p _ _ _ _ _ _ _ _ JA) as (A0 & c1 & mb & Q & pd' & HH & EP & EC & C).
  destruct C as [(_ & X & _) | (r' & ex & qs & todo & out & l9 & E & WF' & CU2 & TR & EM & PD & LO & LQ & F)]; [congruence|].
  rewrite CU in CU2. inversion CU2; subst r' todo out l9. clear CU2. subst c1. set (c := a_c a) in *.
  apply Forall2_app_inv_l in F. destruct F as (S1 & S2 & F1 & F2 & ES).
  destruct (hist_flat p W _ _ _ _ _ _ HH) as (I & _).
  destruct (hist_exact _ _ _ _ _ _ HH _ F1) as (X & _). destruct (xstep p W _ c mb r X I WF') as [X1 _].
  exists A0. auto.
Qed.

Theorem proto_exact_time : forall is2 is i j s0, proto_run p s0 ((is ++ [i]) ++ is2 ++ [j]) -> i_req_en i = true ->
  let tr1 := trace_of p s0 (is ++ [i]) in let s1 := fst (run p s0 (is ++ [i])) in
  let tr2 := trace_of p s1 (is2 ++ [j]) in
  Forall (fun i => i_resp_rdy i && i_mreq_rdy i = true) (is2 ++ [j]) ->
  (length (responses (tr1 ++ trace_of p s1 is2)) < length (accepted tr1))%nat ->
  (length (accepted tr1) <= length (responses (tr1 ++ tr2)))%nat ->
  productive_cycles tr1 tr2 = service p (i_req i) (length (fst (x_step p (x_after p x_empty (accepted (trace_of p s0 is))) (i_req i)))).
Proof.
  intros is2 is i j s0 P RE tr1 s1 tr2 F UN AN.
  assert (ACC : accepted tr1 = accepted (trace_of p s0 is) ++ [i_req i]).
  { unfold tr1. rewrite trace_snoc, accepted_app. f_equal. unfold accepted. cbn. rewrite RE. auto. }
  destruct (lift2m p (fun _ => 0) _ _ _ _ P) as (is' & i' & x & m & rq & S & HI & E1 & E2 & H1 & H2 & AC). fold tr1 s1 tr2 in H1, H2, AC.
  rewrite map_app in E2. cbn [map] in E2. apply map_eq_app in E2. destruct E2 as (is2' & y & -> & E2 & E3).
  destruct y as [|j' [|? ?]]; try discriminate E3. 
  destruct (hide_inE _ _ HI) as (EN & ET & _). rewrite RE in EN.
  pose proof (service_exact p W _ _ _ _ _ _ _ _ _ S EN) as B. cbv zeta in B.
  destruct (hide_len _ _ H1) as (R1 & A1 & _). destruct (hide_len _ _ H2) as (R2 & _ & M2).
  assert (H3 : map hide_io (trace_of p (fst (run p s0 (is' ++ [i']))) is2') = map hide_io (trace_of p s1 is2)).
  { pose proof H2 as HH. unfold tr2 in HH. rewrite !trace_app, !map_app in HH.
    apply app_split in HH; [apply HH|]. rewrite !map_length, !trace_length. apply (f_equal (@length _)) in E2. rewrite !map_length in E2. auto. }
  destruct (hide_len _ _ H3) as (R3 & _).
  rewrite !responses_app, !app_length in *. rewrite A1, R1, R2, R3, M2, (service_type p (i_req i)), (hide_productive _ _ _ _ H1 H2) in B by auto.
  assert (F' : Forall (fun i => i_resp_rdy i && i_mreq_rdy i = true) (is2' ++ [j'])).
  { assert (EE : map hide_in (is2' ++ [j']) = map hide_in (is2 ++ [j])) by (rewrite !map_app, E2; cbn [map]; rewrite <- E3; auto).
    clear - F EE. revert EE F. generalize (is2' ++ [j']) as l', (is2 ++ [j]) as l.
    intros l'. induction l' as [|a l' IH]; intros [|b l] E F; try discriminate E; auto.
    inversion F; subst. constructor; [|apply (IH l); auto; exact (f_equal (@tl _) E)].
    assert (hide_in a = hide_in b) by exact (f_equal (hd (hide_in b)) E). destruct (hide_inE _ _ H) as (_ & _ & X). rewrite X. auto. }
  destruct (B F' UN AN) as (B1 & m1 & rq1 & rs1 & a1 & ST & CU & LN). fold tr1 s1 tr2 in B1. rewrite B1. f_equal.
  destruct (accept_exact _ _ _ _ _ _ _ _ _ ST CU) as (A0 & EA & EX). rewrite AC, ACC in EA. apply app_inj_tail in EA. destruct EA as [EA1 EA2].
  rewrite EA1, EA2, <- EX, map_length, <- LN. auto.
Qed.
End F.

(** *** Among several caches *)
Section PM.
Variable p : params. Variable z : nat -> N * N. Variable n : nat.
Hypothesis W : wf_caches p z n.
Theorem multi_exact_done : forall s0 m0 ts m rq rs i, clients p z n s0 ts -> mmem p n m0 no_reqs no_resps ts m rq rs -> (i < n)%nat ->
  length (responses (proj i ts)) = length (accepted (proj i ts)) ->
  map shape_of (memreqs (proj i ts)) = concat (predict (sized p z i) (accepted (proj i ts))).
Proof.
  intros s0 m0 ts m rq rs i C M I L. pose proof (multi_proto p z n s0 m0 _ _ _ _ i C M I) as P.
  pose proof (proto_exact_done (sized p z i) (W i I) _ _ P) as H. cbv zeta in H. rewrite <- (proj1 (proj2 (C i I))) in H. auto.
Qed.
End PM.
