(** The schedule of a program (C62): executions with any memory. *)
From Coq Require Import NArith PeanoNat List Bool Lia.
From Verif Require Import Bits Params Msg Rtl Mem Traffic ParamsProofs RtlLemmas Spec System SysProofs SysFacts Facts1 Facts2 Facts3 Progress Hide Obliv Proto LiveSpec Live TimeSpec Service Service2 RunTime
  ExactSpec Exact2 ScheduleSpec Schedule.
Import ListNotations.
Open Scope N_scope.

Section P.
Variable p : params.
Hypothesis W : wf_params p.

Lemma hide_ready : forall l l', map hide_in l' = map hide_in l -> Forall (fun j => ready j = true) l -> Forall (fun j => ready j = true) l'.
Proof.
  intros l l'. revert l. induction l' as [|a l' IH]; intros [|b l] E F; try discriminate E; auto.
  inversion F; subst. constructor; [|apply (IH l); auto; exact (f_equal (@tl _) E)].
  assert (hide_in a = hide_in b) by exact (f_equal (hd (hide_in b)) E). destruct (hide_inE _ _ H) as (_ & _ & X). unfold ready in *. rewrite X. auto.
Qed.
Lemma acc_snoc : forall is i s0, i_req_en i = true -> accepted (trace_of p s0 (is ++ [i])) = accepted (trace_of p s0 is) ++ [i_req i].
Proof. intros is i s0 RE. rewrite trace_snoc, accepted_app, acc_one. cbn [fst]. rewrite RE. auto. Qed.
Lemma resp_run : forall is s0, proto_run p s0 is -> reset_state p s0.
Proof. intros is s0 (R & _). auto. Qed.

Theorem proto_ready_iff : forall is2 is i j s0, proto_run p s0 ((is ++ [i]) ++ is2) -> i_req_en i = true ->
  Forall (fun j => ready j = true) is2 -> ready j = true ->
  let tr1 := trace_of p s0 (is ++ [i]) in let s1 := fst (run p s0 (is ++ [i])) in let tr2 := trace_of p s1 is2 in
  accepted tr2 = [] ->
  o_req_rdy (output p (fst (run p s1 is2)) j) = true <->
  (gap p (x_after p x_empty (accepted (trace_of p s0 is))) (i_req i) <= productive_cycles tr1 tr2 + 1)%nat.
Proof.
  intros is2 is i j s0 P RE F RJ tr1 s1 tr2 NA.
  destruct (lift2m p (fun _ => 0) _ _ _ _ P) as (is' & i' & is2' & m & rq & S & HI & H3 & HF & H1 & H2 & AC). fold tr1 s1 tr2 in H1, H2, AC.
  destruct (hide_inE _ _ HI) as (EN & ET & _). rewrite RE in EN.
  destruct (hide_len _ _ H2) as (_ & A2 & _). rewrite NA in A2.
  assert (NA' : accepted (trace_of p (fst (run p s0 (is' ++ [i']))) is2') = []) by (apply length_zero_iff_nil; exact A2).
  pose proof (ready_iff p W is2' is' i' j s0 _ _ _ _ S EN (hide_ready _ _ HF F) RJ NA') as B. cbv zeta in B.
  unfold tr1 in AC. rewrite !acc_snoc in AC by auto. apply app_inj_tail in AC. destruct AC as [AC1 AC2]. rewrite AC1, AC2 in B.
  rewrite (hide_productive _ _ _ _ H1 H2) in B. rewrite <- B.
  assert (HA : map hide_in ((is' ++ [i']) ++ is2') = map hide_in ((is ++ [i]) ++ is2)) by (rewrite !map_app, H3, HF; cbn [map]; rewrite HI; auto).
  destruct (oblivious p _ _ s0 s0 (ctl_refl s0) HA) as [_ CE].
  pose proof (obl_out p _ _ j j CE eq_refl) as HO. apply (f_equal o_req_rdy) in HO.
  rewrite (run_app p (is' ++ [i']) is2' s0), (run_app p (is ++ [i]) is2 s0) in HO. fold s1 in HO.
  assert (Q : o_req_rdy (output p (fst (run p (fst (run p s0 (is' ++ [i']))) is2')) j) = o_req_rdy (output p (fst (run p s1 is2)) j)) by exact HO.
  rewrite Q. tauto.
Qed.
Theorem proto_answered_iff : forall is2 is i s0, proto_run p s0 ((is ++ [i]) ++ is2) -> i_req_en i = true ->
  Forall (fun j => ready j = true) is2 ->
  let tr1 := trace_of p s0 (is ++ [i]) in let s1 := fst (run p s0 (is ++ [i])) in let tr2 := trace_of p s1 is2 in
  (length (accepted tr1) <= length (responses (tr1 ++ tr2)))%nat <->
  (service p (i_req i) (made p (x_after p x_empty (accepted (trace_of p s0 is))) (i_req i)) <= productive_cycles tr1 tr2)%nat.
Proof.
  intros is2 is i s0 P RE F tr1 s1 tr2.
  destruct (lift2m p (fun _ => 0) _ _ _ _ P) as (is' & i' & is2' & m & rq & S & HI & H3 & HF & H1 & H2 & AC). fold tr1 s1 tr2 in H1, H2, AC.
  destruct (hide_inE _ _ HI) as (EN & ET & _). rewrite RE in EN.
  pose proof (answered_iff p W is2' is' i' s0 _ _ _ _ S EN (hide_ready _ _ HF F)) as B. cbv zeta in B.
  destruct (hide_len _ _ H1) as (R1 & A1 & _). destruct (hide_len _ _ H2) as (R2 & _ & _).
  unfold tr1 in AC. rewrite !acc_snoc in AC by auto. apply app_inj_tail in AC. destruct AC as [AC1 AC2]. rewrite AC1, AC2 in B.
  rewrite (hide_productive _ _ _ _ H1 H2) in B. rewrite !responses_app, !app_length in *. rewrite A1, R1, R2 in B. exact B.
Qed.

(** *** lists *)
Lemma where_app : forall f t1 t2 n, cycles_where f n (t1 ++ t2) = cycles_where f n t1 ++ cycles_where f (n + length t1) t2.
Proof.
  intros f. induction t1 as [|x t1 IH]; intros t2 n; cbn [app cycles_where length]; [rewrite Nat.add_0_r; auto|].
  rewrite IH, app_assoc. do 2 f_equal. lia.
Qed.
Lemma starts_snoc : forall R r t x, starts_from p t x (R ++ [r]) = starts_from p t x R ++ [next_from p t x R].
Proof. induction R as [|a R IH]; intros r t x; cbn [app starts_from next_from]; auto. rewrite IH. auto. Qed.
Lemma next_snoc : forall R r t x, next_from p t x (R ++ [r]) = (next_from p t x R + gap p (x_after p x R) r)%nat.
Proof. induction R as [|a R IH]; intros r t x; cbn [app next_from x_after]; auto. Qed.
Lemma ends_snoc : forall R r t x, ends_from p t x (R ++ [r]) = ends_from p t x R ++ [(next_from p t x R + service p r (made p (x_after p x R) r))%nat].
Proof. induction R as [|a R IH]; intros r t x; cbn [app ends_from next_from x_after]; auto. rewrite IH. auto. Qed.
Lemma ends_len : forall R t x, length (ends_from p t x R) = length R.
Proof. induction R; intros; cbn [ends_from length]; auto. Qed.
Lemma nw_app : forall total t1 t2 t0, no_waiting total t0 (t1 ++ t2) = no_waiting total t0 t1 && no_waiting total (t0 ++ t1) t2.
Proof.
  intros total. induction t1 as [|x t1 IH]; intros t2 t0; cbn [app no_waiting]; [rewrite app_nil_r; auto|].
  rewrite IH, <- !app_assoc, !andb_assoc. cbn [app]. auto.
Qed.
Lemma nw_prod : forall total tr t0, no_waiting total t0 tr = true -> productive_cycles t0 tr = length tr /\ Forall (fun io => ready (fst io) = true) tr.
Proof.
  intros total. induction tr as [|x tr IH]; intros t0 H; cbn [no_waiting productive_cycles length] in *; [auto|].
  apply andb_prop in H. destruct H as [H H3]. apply andb_prop in H. destruct H as [H1 H2].
  destruct (IH _ H3) as [E F]. rewrite H1, E. split; auto. constructor; auto. unfold productive in H1. apply andb_prop in H1. apply H1.
Qed.
Lemma nw_ready : forall total is s t0, no_waiting total t0 (trace_of p s is) = true -> Forall (fun j => ready j = true) is.
Proof.
  intros total. induction is as [|i is IH]; intros s t0 H; auto. rewrite trace_cons in H. cbn [no_waiting fst] in H.
  apply andb_prop in H. destruct H as [H H3]. apply andb_prop in H. destruct H as [H1 H2].
  constructor; eauto. unfold productive in H1. apply andb_prop in H1. apply H1.
Qed.
Lemma gap_pos : forall x r, (1 <= gap p x r)%nat.
Proof. intros x r. pose proof (gap_ge p x r). pose proof (service_ge2 p r) as G. pose proof (service0 p r (made p x r)). lia. Qed.

(** *** The cycles in which requests are accepted *)
Theorem schedule : forall total is s0, proto_run p s0 is -> no_waiting total [] (trace_of p s0 is) = true ->
  let tr := trace_of p s0 is in (length (accepted tr) <= total)%nat ->
  accept_cycles tr = starts p (accepted tr) /\
  ((length (accepted tr) < total)%nat -> (length is <= next_start p (accepted tr))%nat).
Proof.
  intros total. induction is as [|j is IH] using rev_ind; intros s0 P NW tr LT.
  - split; [reflexivity|]. cbn. lia.
  - pose proof (proto_app p _ _ _ P) as PP. unfold tr in *. rewrite trace_snoc in NW, LT |- *. set (s := fst (run p s0 is)) in *.
    rewrite nw_app in NW. apply andb_prop in NW. destruct NW as [NW NJ]. cbn [app no_waiting fst snd] in NJ. rewrite andb_true_r in NJ.
    apply andb_prop in NJ. destruct NJ as [NJ OF].
    assert (RJ : ready j = true) by (unfold productive in NJ; apply andb_prop in NJ; apply NJ).
    rewrite accepted_app, acc_one in LT |- *. cbn [fst] in *.
    assert (LE : (length (accepted (trace_of p s0 is)) <= total)%nat) by (rewrite app_length in LT; lia).
    specialize (IH s0 PP NW LE). destruct IH as [AC NX]. set (A := accepted (trace_of p s0 is)) in *.
    assert (KEY : o_req_rdy (output p s j) = true <-> (next_start p A <= length is)%nat).
    { destruct (last_acc p is s0) as [E | (u & i & v & E & RE & NA & EA)].
      - fold A in E. rewrite E. unfold next_start. cbn [next_from].
        destruct (Nat.lt_ge_cases (length is) (N.to_nat (total_lines p))) as [L|G].
        + split; [|lia]. intros X. exfalso.
          destruct (proto_lift p is s0 (fun _ => 0) PP) as (is' & m & S & HI & _).
          assert (L' : length is' = length is) by (apply (f_equal (@length _)) in HI; rewrite !map_length in HI; auto).
          destruct (sys_init p W _ _ _ _ _ _ S) as (_ & _ & _ & NR); [lia|].
          destruct (oblivious p _ _ s0 s0 (ctl_refl s0) HI) as [_ CE].
          pose proof (obl_out p _ _ j j CE eq_refl) as HO. apply (f_equal o_req_rdy) in HO. fold s in HO.
          specialize (NR j). change (o_req_rdy (output p (fst (run p s0 is')) j) = o_req_rdy (output p s j)) in HO. congruence.
        + split; auto. intros _. unfold s. apply (proto_ready0 p W); auto. fold A. rewrite E. cbn. lia.
      - fold A in EA. rewrite app_assoc in E.
        pose proof (trace_app p (u ++ [i]) v s0) as TA. rewrite <- E in TA.
        pose proof PP as P1. rewrite E in P1.
        rewrite TA, nw_app in NW. apply andb_prop in NW. destruct NW as [_ NV]. cbn [app] in NV.
        destruct (nw_prod _ _ _ NV) as [PV _]. rewrite trace_length in PV. pose proof (nw_ready _ _ _ _ NV) as FV.
        pose proof (proto_ready_iff v u i j s0 P1 RE FV RJ NA) as B. cbv zeta in B. rewrite PV in B.
        assert (ES : fst (run p (fst (run p s0 (u ++ [i]))) v) = s) by (unfold s; rewrite E, (run_app p (u ++ [i]) v s0); auto).
        rewrite ES in B. rewrite B. unfold next_start. rewrite EA, next_snoc. fold (next_start p (accepted (trace_of p s0 u))).
        assert (LU : length u = next_start p (accepted (trace_of p s0 u))).
        { rewrite EA in AC. unfold starts in AC. rewrite starts_snoc, TA in AC. unfold accept_cycles in AC. rewrite trace_snoc, !where_app in AC.
          cbn [cycles_where fst] in AC. rewrite RE, app_nil_r in AC.
          assert (Z : cycles_where (fun io => i_req_en (fst io)) (0 + length (trace_of p s0 u ++ [(i, output p (fst (run p s0 u)) i)])) (trace_of p (fst (run p s0 (u ++ [i]))) v) = []).
          { revert NA. generalize (trace_of p (fst (run p s0 (u ++ [i]))) v). generalize (0 + length (trace_of p s0 u ++ [(i, output p (fst (run p s0 u)) i)]))%nat.
            intros n t. revert n. induction t as [|x t IHt]; intros n Z; auto. cbn [cycles_where]. change (x :: t) with ([x] ++ t) in Z. rewrite accepted_app, acc_one in Z.
            destruct (i_req_en (fst x)); [discriminate Z|]. cbn [app] in *. auto. }
          rewrite Z, app_nil_r in AC. apply app_inj_tail in AC. destruct AC as [_ AC]. rewrite trace_length in AC. exact AC. }
        rewrite E, !app_length. cbn [length]. rewrite <- LU. lia. }
    assert (CY : accept_cycles (trace_of p s0 is ++ [(j, output p s j)]) = accept_cycles (trace_of p s0 is) ++ if i_req_en j then [length is] else []).
    { unfold accept_cycles. rewrite where_app. cbn [cycles_where fst]. rewrite app_nil_r, trace_length. auto. }
    rewrite CY, AC. rewrite (app_length is). cbn [length].
    destruct (i_req_en j) eqn:RE.
    + assert (RDY : o_req_rdy (output p s j) = true).
      { destruct P as (_ & CL & _). rewrite trace_snoc in CL. fold s in CL. apply Forall_app in CL. destruct CL as [_ CL]. apply Forall_inv in CL. cbn [fst snd] in CL.
        apply CL; auto. }
      apply KEY in RDY. rewrite app_length in LT. cbn [length] in LT. specialize (NX ltac:(lia)).
      assert (T : length is = next_start p A) by lia.
      split.
      * unfold starts. rewrite starts_snoc. fold (next_start p A). rewrite <- T. auto.
      * intros _. unfold next_start. rewrite next_snoc. fold (next_start p A). pose proof (gap_pos (x_after p x_empty A) (i_req j)). lia.
    + rewrite !app_nil_r in *. split; auto. intros L.
      destruct (o_req_rdy (output p s j)) eqn:RDY.
      * cbn [implb orb] in OF. apply Nat.leb_le in OF. lia.
      * specialize (NX L). destruct (Nat.eq_dec (length is) (next_start p A)) as [X|X]; [|lia].
        assert (false = true) by (apply KEY; lia). discriminate.
Qed.

(** *** The cycles in which responses are sent *)
Lemma where_len : forall tr n, length (cycles_where (fun io => match o_resp (snd io) with Some _ => true | None => false end) n tr) = length (responses tr).
Proof.
  induction tr as [|x tr IH]; intros n; auto. cbn [cycles_where]. change (x :: tr) with ([x] ++ tr). rewrite responses_app, !app_length, IH. f_equal.
  unfold responses. cbn [flat_map]. destruct (o_resp (snd x)); auto.
Qed.
(** By the end of cycle [t]-1 the [n]-th request is answered exactly if its time is before [t]. *)
Lemma nth_answered : forall total is s0, proto_run p s0 is -> no_waiting total [] (trace_of p s0 is) = true ->
  let tr := trace_of p s0 is in (length (accepted tr) <= total)%nat ->
  forall n t, nth_error (ends p (accepted tr)) n = Some t -> ((n < length (responses tr))%nat <-> (t < length is)%nat).
Proof.
  intros total is s0 P NW tr LT n t NE.
  assert (L : (n < length (accepted tr))%nat).
  { rewrite <- (ends_len (accepted tr) (N.to_nat (total_lines p)) x_empty). apply nth_error_Some. unfold ends in NE. congruence. }
  destruct (nth_acc p is s0 n L) as (u & i & w & E & RE & LN & AC).
  pose proof (trace_app p (u ++ [i]) w s0) as TA. rewrite <- E in TA. fold tr in TA.
  pose proof P as P1. rewrite E in P1. pose proof (proto_app p _ _ _ P1) as P2.
  fold tr in NW. rewrite TA, nw_app in NW. apply andb_prop in NW. destruct NW as [NU NV]. cbn [app] in NV.
  destruct (nw_prod _ _ _ NV) as [PV _]. rewrite trace_length in PV. pose proof (nw_ready _ _ _ _ NV) as FV.
  assert (LU : length u = next_start p (accepted (trace_of p s0 u))).
  { destruct (schedule total (u ++ [i]) s0 P2 NU) as [S1 _].
    { rewrite AC. pose proof (firstn_le_length (S n) (accepted tr)). fold tr. lia. }
    rewrite acc_snoc in S1 by auto. unfold starts in S1. rewrite starts_snoc in S1. unfold accept_cycles in S1. rewrite trace_snoc, where_app in S1.
    cbn [cycles_where fst] in S1. rewrite RE, app_nil_r in S1. apply app_inj_tail in S1. destruct S1 as [_ S1]. rewrite trace_length in S1. exact S1. }
  pose proof (proto_answered_iff w u i s0 P1 RE FV) as B. cbv zeta in B. rewrite PV, <- TA in B.
  assert (ET : t = (length u + service p (i_req i) (made p (x_after p x_empty (accepted (trace_of p s0 u))) (i_req i)))%nat).
  { rewrite LU. assert (EA : accepted tr = accepted (trace_of p s0 (u ++ [i])) ++ skipn (S n) (accepted tr)) by (rewrite AC; fold tr; symmetry; apply firstn_skipn).
    rewrite EA, acc_snoc in NE by auto. unfold ends in NE.
    assert (AP : forall R1 R2 t0 x0, exists l, ends_from p t0 x0 (R1 ++ R2) = ends_from p t0 x0 R1 ++ l).
    { induction R1 as [|a R1 IH1]; intros R2 t0 x0; [eexists; reflexivity|]. cbn [app ends_from]. destruct (IH1 R2 (t0 + gap p x0 a)%nat (snd (x_step p x0 a))) as (l & ->). eexists. reflexivity. }
    destruct (AP (accepted (trace_of p s0 u) ++ [i_req i]) (skipn (S n) (accepted tr)) (N.to_nat (total_lines p)) x_empty) as (l & EL). rewrite EL, ends_snoc in NE.
    rewrite nth_error_app1 in NE by (rewrite app_length, ends_len; cbn; lia).
    rewrite nth_error_app2 in NE by (rewrite ends_len; lia). rewrite ends_len, LN, Nat.sub_diag in NE. cbn [nth_error] in NE. inversion NE. reflexivity. }
  rewrite acc_snoc, app_length in B by auto. cbn [length] in B. rewrite LN in B.
  assert (LI : length is = (length u + 1 + length w)%nat) by (rewrite E, !app_length; cbn; lia).
  rewrite LI, ET. fold tr. split; intros H; [|]; (assert (n + 1 <= length (responses tr) <-> _)%nat by exact B); lia.
Qed.
Lemma ends_app : forall R1 R2 t0 x0, exists l, ends_from p t0 x0 (R1 ++ R2) = ends_from p t0 x0 R1 ++ l.
Proof.
  induction R1 as [|a R1 IH1]; intros R2 t0 x0; [eexists; reflexivity|]. cbn [app ends_from].
  destruct (IH1 R2 (t0 + gap p x0 a)%nat (snd (x_step p x0 a))) as (l & ->). eexists. reflexivity.
Qed.
Lemma filter_firstn : forall T L n, (forall k t, nth_error L k = Some t -> ((k < n)%nat <-> (t < T)%nat)) -> filter (fun t => Nat.ltb t T) L = firstn n L.
Proof.
  intros T. induction L as [|t L IH]; intros n H; [rewrite firstn_nil; auto|]. cbn [filter].
  pose proof (H 0%nat t eq_refl) as H0.
  destruct n as [|n].
  - destruct (Nat.ltb_spec t T); [lia|]. rewrite (IH 0%nat); auto. intros k t' E. specialize (H (S k) t' E). lia.
  - destruct (Nat.ltb_spec t T); [|lia]. cbn [firstn]. f_equal. apply IH. intros k t' E. specialize (H (S k) t' E). lia.
Qed.
Theorem answers : forall total is s0, proto_run p s0 is -> no_waiting total [] (trace_of p s0 is) = true ->
  let tr := trace_of p s0 is in (length (accepted tr) <= total)%nat ->
  answer_cycles tr = filter (fun t => Nat.ltb t (length is)) (ends p (accepted tr)).
Proof.
  intros total. induction is as [|j is IH] using rev_ind; intros s0 P NW tr LT; [reflexivity|].
  pose proof (nth_answered total _ s0 P NW LT) as N2. fold tr in N2.
  rewrite (filter_firstn _ _ _ N2).
  pose proof (proto_app p _ _ _ P) as PP.
  assert (TR : tr = trace_of p s0 is ++ [(j, output p (fst (run p s0 is)) j)]) by apply trace_snoc.
  rewrite trace_snoc, nw_app in NW. apply andb_prop in NW. destruct NW as [NW _].
  assert (LE : (length (accepted (trace_of p s0 is)) <= total)%nat) by (rewrite TR, accepted_app, app_length in LT; lia).
  pose proof (nth_answered total _ s0 PP NW LE) as N1. specialize (IH s0 PP NW LE). cbv zeta in IH.
  rewrite (filter_firstn _ _ _ N1) in IH.
  destruct (ends_app (accepted (trace_of p s0 is)) (accepted [(j, output p (fst (run p s0 is)) j)]) (N.to_nat (total_lines p)) x_empty) as (l & EL).
  rewrite <- accepted_app, <- TR in EL. fold (ends p (accepted (trace_of p s0 is))) in EL. fold (ends p (accepted tr)) in EL.
  pose proof (proto_inflight p W s0 is PP) as IF. cbv zeta in IF.
  assert (LEN : length (ends p (accepted (trace_of p s0 is))) = length (accepted (trace_of p s0 is))) by apply ends_len.
  assert (F1 : firstn (length (responses (trace_of p s0 is))) (ends p (accepted tr)) = answer_cycles (trace_of p s0 is)).
  { rewrite IH, EL, firstn_app. replace (length (responses (trace_of p s0 is)) - length (ends p (accepted (trace_of p s0 is))))%nat with 0%nat by lia. cbn [firstn]. apply app_nil_r. }
  set (n := length (responses (trace_of p s0 is))) in *.
  assert (AC : answer_cycles tr = answer_cycles (trace_of p s0 is) ++ if is_some (o_resp (output p (fst (run p s0 is)) j)) then [length is] else []).
  { rewrite TR. unfold answer_cycles. rewrite where_app. cbn [cycles_where snd]. rewrite trace_length. destruct (o_resp (output p (fst (run p s0 is)) j)); auto. }
  assert (RL : length (responses tr) = (n + if is_some (o_resp (output p (fst (run p s0 is)) j)) then 1 else 0)%nat).
  { rewrite TR, responses_app, app_length. fold n. f_equal. unfold responses. cbn [flat_map snd]. destruct (o_resp (output p (fst (run p s0 is)) j)); auto. }
  rewrite AC, <- F1. destruct (is_some (o_resp (output p (fst (run p s0 is)) j))) eqn:OR; [|rewrite RL, Nat.add_0_r, app_nil_r; auto].
  assert (L : (n < length (accepted tr))%nat).
  { pose proof (proto_inflight p W s0 _ P) as IF2. cbv zeta in IF2. fold tr in IF2. lia. }
  rewrite <- (ends_len (accepted tr) (N.to_nat (total_lines p)) x_empty) in L. fold (ends p (accepted tr)) in L.
  destruct (nth_error (ends p (accepted tr)) n) as [t|] eqn:NE; [|apply nth_error_None in NE; lia].
  assert (ET : t = length is).
  { pose proof (N2 n t NE) as Q2. rewrite app_length in Q2. cbn [length] in Q2.
    destruct (Nat.lt_ge_cases n (length (accepted (trace_of p s0 is)))) as [LA|GA].
    - assert (NE1 : nth_error (ends p (accepted (trace_of p s0 is))) n = Some t) by (rewrite EL, nth_error_app1 in NE by lia; auto).
      pose proof (N1 n t NE1). fold n in H. lia.
    - exfalso. (* the request accepted in this very cycle is not answered *)
      assert (n = length (accepted (trace_of p s0 is))) by lia.
      assert (AJ : i_req_en j = true).
      { destruct (i_req_en j) eqn:X; auto. exfalso. unfold ends in L. rewrite ends_len in L. rewrite TR, accepted_app, acc_one, app_length in L. cbn [fst] in L. rewrite X in L. cbn [length] in L. lia. }
      pose proof (proto_answered_iff [] is j s0) as B. rewrite app_nil_r in B. specialize (B P AJ (Forall_nil _)). cbv zeta in B.
      change (trace_of p (fst (run p s0 (is ++ [j]))) []) with (@nil (inp * outp)) in B. rewrite app_nil_r in B. fold tr in B. cbn [productive_cycles] in B.
      assert (LAT : (length (accepted tr) <= length (responses tr))%nat).
      { rewrite RL, TR, accepted_app, acc_one, app_length. cbn [fst]. rewrite AJ. cbn [length]. lia. }
      apply B in LAT. pose proof (service_ge2 p (i_req j)). pose proof (service0 p (i_req j) (made p (x_after p x_empty (accepted (trace_of p s0 is))) (i_req j))). lia. }
  subst t. rewrite RL. replace (n + 1)%nat with (S n) by lia. symmetry. apply Latency.firstn_snoc. auto.
Qed.
End P.
