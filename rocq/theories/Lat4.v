(** A memory of fixed latency (C63): the whole program.  Same structure as Schedule2.v. *)
From Coq Require Import NArith PeanoNat List Bool Lia.
From Verif Require Import Bits Params Msg Rtl Mem Traffic ParamsProofs RtlLemmas Spec System SysProofs SysFacts Facts1 Facts2 Facts3 Progress Hide Obliv Proto LiveSpec Live TimeSpec Service Service2 RunTime
  ExactSpec Exact2 ScheduleSpec Schedule Schedule2 LatSpec Lat Lat2 Lat3.
Import ListNotations.
Open Scope N_scope.

Section P.
Variable p : params.
Hypothesis W : wf_params p.
Variable Lt : nat.
Hypothesis GL : (1 <= Lt)%nat.

Lemma starts_snoc : forall R r t x, lat_starts_from p Lt t x (R ++ [r]) = lat_starts_from p Lt t x R ++ [lat_next_from p Lt t x R].
Proof. induction R as [|a R IH]; intros r t x; cbn [app lat_starts_from lat_next_from]; auto. rewrite IH. auto. Qed.
Lemma next_snoc : forall R r t x, lat_next_from p Lt t x (R ++ [r]) = (lat_next_from p Lt t x R + lat_gap p Lt (x_after p x R) r)%nat.
Proof. induction R as [|a R IH]; intros r t x; cbn [app lat_next_from x_after]; auto. Qed.
Lemma ends_snoc : forall R r t x, lat_ends_from p Lt t x (R ++ [r]) = lat_ends_from p Lt t x R ++ [(lat_next_from p Lt t x R + lat_service p Lt r (made p (x_after p x R) r))%nat].
Proof. induction R as [|a R IH]; intros r t x; cbn [app lat_ends_from lat_next_from x_after]; auto. rewrite IH. auto. Qed.
Lemma ends_len : forall R t x, length (lat_ends_from p Lt t x R) = length R.
Proof. induction R; intros; cbn [lat_ends_from length]; auto. Qed.
Lemma nw_app : forall total t1 t2 t0, prompt total t0 (t1 ++ t2) = prompt total t0 t1 && prompt total (t0 ++ t1) t2.
Proof.
  intros total. induction t1 as [|x t1 IH]; intros t2 t0; cbn [app prompt]; [rewrite app_nil_r; auto|].
  rewrite IH, <- !app_assoc, !andb_assoc. cbn [app]. auto.
Qed.
Lemma gap_pos : forall x r, (1 <= lat_gap p Lt x r)%nat.
Proof. intros x r. pose proof (gap_ge p x r). pose proof (service_ge2 p r) as G2. pose proof (service0 p r (made p x r)). unfold lat_gap. apply Nat.le_trans with (gap p x r); [lia|apply Nat.le_add_r]. Qed.
Lemma nw_ready : forall total is s t0, prompt total t0 (trace_of p s is) = true -> Forall (fun j => ready j = true) is.
Proof.
  intros total. induction is as [|i is IH]; intros s t0 H; auto. rewrite trace_cons in H. cbn [prompt fst] in H.
  apply andb_prop in H. destruct H as [H H3]. apply andb_prop in H. destruct H as [H1 H2]. constructor; eauto.
Qed.

(** *** The cycles in which requests are accepted *)
Theorem schedule : forall total is s0, proto_run p s0 is -> prompt total [] (trace_of p s0 is) = true -> latency Lt (trace_of p s0 is) ->
  let tr := trace_of p s0 is in (length (accepted tr) <= total)%nat ->
  accept_cycles tr = lat_starts p Lt (accepted tr) /\
  ((length (accepted tr) < total)%nat -> (length is <= lat_next p Lt (accepted tr))%nat).
Proof.
  intros total. induction is as [|j is IH] using rev_ind; intros s0 P NW LA tr LT.
  - split; [reflexivity|]. cbn. lia.
  - pose proof (proto_app p _ _ _ P) as PP. unfold tr in *. rewrite trace_snoc in NW, LT, LA |- *. pose proof (latency_app _ _ _ GL LA) as LA0. set (s := fst (run p s0 is)) in *.
    rewrite nw_app in NW. apply andb_prop in NW. destruct NW as [NW NJ]. cbn [app prompt fst snd] in NJ. rewrite andb_true_r in NJ.
    apply andb_prop in NJ. destruct NJ as [NJ OF].
    assert (RJ : ready j = true) by exact NJ.
    rewrite accepted_app, acc_one in LT |- *. cbn [fst] in *.
    assert (LE : (length (accepted (trace_of p s0 is)) <= total)%nat) by (rewrite app_length in LT; lia).
    specialize (IH s0 PP NW LA0 LE). destruct IH as [AC NX]. set (A := accepted (trace_of p s0 is)) in *.
    assert (KEY : o_req_rdy (output p s j) = true <-> (lat_next p Lt A <= length is)%nat).
    { destruct (last_acc p is s0) as [E | (u & i & v & E & RE & NA & EA)].
      - fold A in E. rewrite E. unfold lat_next. cbn [lat_next_from].
        destruct (Nat.lt_ge_cases (length is) (N.to_nat (total_lines p))) as [L|G].
        + split; [|lia]. intros X. exfalso.
          destruct (proto_lift p is s0 (fun _ => 0) PP) as (is' & m & S & HI & _).
          assert (L' : length is' = length is) by (apply (f_equal (@length _)) in HI; rewrite !map_length in HI; auto).
          destruct (sys_init p W _ _ _ _ _ _ S) as (_ & _ & _ & NR); [lia|].
          destruct (oblivious p _ _ s0 s0 (ctl_refl s0) HI) as [_ CE].
          pose proof (obl_out p _ _ j j CE eq_refl) as HO. apply (f_equal o_req_rdy) in HO. fold s in HO.
          specialize (NR j). change (o_req_rdy (output p (fst (run p s0 is')) j) = o_req_rdy (output p s j)) in HO. congruence.
        + split; auto. intros _. unfold s. apply (proto_ready0 p W); auto. fold A. rewrite E. cbn. lia.
      - fold A in EA. rewrite app_assoc in E.
        pose proof (trace_app p (u ++ [i]) v s0) as TA. rewrite <- E in TA.
        pose proof PP as P1. rewrite E in P1.
        rewrite TA, nw_app in NW. apply andb_prop in NW. destruct NW as [_ NV]. cbn [app] in NV.
        pose proof (nw_ready _ _ _ _ NV) as FV. rewrite TA in LA0.
        pose proof (lat_ready_iff p W Lt GL v u i j s0 P1 RE FV RJ LA0 NA) as B. cbv zeta in B.
        assert (ES : fst (run p (fst (run p s0 (u ++ [i]))) v) = s) by (unfold s; rewrite E, (run_app p (u ++ [i]) v s0); auto).
        rewrite ES in B. rewrite B. unfold lat_next. rewrite EA, next_snoc. fold (lat_next p Lt (accepted (trace_of p s0 u))).
        assert (LU : length u = lat_next p Lt (accepted (trace_of p s0 u))).
        { rewrite EA in AC. unfold lat_starts in AC. rewrite starts_snoc, TA in AC. unfold accept_cycles in AC. rewrite trace_snoc, !where_app in AC.
          cbn [cycles_where fst] in AC. rewrite RE, app_nil_r in AC.
          assert (Z : cycles_where (fun io => i_req_en (fst io)) (0 + length (trace_of p s0 u ++ [(i, output p (fst (run p s0 u)) i)])) (trace_of p (fst (run p s0 (u ++ [i]))) v) = []).
          { revert NA. generalize (trace_of p (fst (run p s0 (u ++ [i]))) v). generalize (0 + length (trace_of p s0 u ++ [(i, output p (fst (run p s0 u)) i)]))%nat.
            intros n t. revert n. induction t as [|x t IHt]; intros n Z; auto. cbn [cycles_where]. change (x :: t) with ([x] ++ t) in Z. rewrite accepted_app, acc_one in Z.
            destruct (i_req_en (fst x)); [discriminate Z|]. cbn [app] in *. auto. }
          rewrite Z, app_nil_r in AC. apply app_inj_tail in AC. destruct AC as [_ AC]. rewrite trace_length in AC. exact AC. }
        rewrite E, !app_length. cbn [length]. rewrite <- LU. lia. }
    assert (CY : accept_cycles (trace_of p s0 is ++ [(j, output p s j)]) = accept_cycles (trace_of p s0 is) ++ if i_req_en j then [length is] else []).
    { unfold accept_cycles. rewrite where_app. cbn [cycles_where fst]. rewrite app_nil_r, trace_length. auto. }
    rewrite CY, AC. rewrite (app_length is). cbn [length].
    destruct (i_req_en j) eqn:RE.
    + assert (RDY : o_req_rdy (output p s j) = true).
      { destruct P as (_ & CL & _). rewrite trace_snoc in CL. fold s in CL. apply Forall_app in CL. destruct CL as [_ CL]. apply Forall_inv in CL. cbn [fst snd] in CL.
        apply CL; auto. }
      apply KEY in RDY. rewrite app_length in LT. cbn [length] in LT. specialize (NX ltac:(lia)).
      assert (T : length is = lat_next p Lt A) by lia.
      split.
      * unfold lat_starts. rewrite starts_snoc. fold (lat_next p Lt A). rewrite <- T. auto.
      * intros _. unfold lat_next. rewrite next_snoc. fold (lat_next p Lt A). pose proof (gap_pos (x_after p x_empty A) (i_req j)). lia.
    + rewrite !app_nil_r in *. split; auto. intros L.
      destruct (o_req_rdy (output p s j)) eqn:RDY.
      * cbn [implb orb] in OF. apply Nat.leb_le in OF. lia.
      * specialize (NX L). destruct (Nat.eq_dec (length is) (lat_next p Lt A)) as [X|X]; [|lia].
        assert (false = true) by (apply KEY; lia). discriminate.
Qed.

(** *** The cycles in which responses are sent *)
(** By the end of cycle [t]-1 the [n]-th request is answered exactly if its time is before [t]. *)
Lemma nth_answered : forall total is s0, proto_run p s0 is -> prompt total [] (trace_of p s0 is) = true -> latency Lt (trace_of p s0 is) ->
  let tr := trace_of p s0 is in (length (accepted tr) <= total)%nat ->
  forall n t, nth_error (lat_ends p Lt (accepted tr)) n = Some t -> ((n < length (responses tr))%nat <-> (t < length is)%nat).
Proof.
  intros total is s0 P NW LA tr LT n t NE.
  assert (L : (n < length (accepted tr))%nat).
  { rewrite <- (ends_len (accepted tr) (N.to_nat (total_lines p)) x_empty). apply nth_error_Some. unfold lat_ends in NE. congruence. }
  destruct (nth_acc p is s0 n L) as (u & i & w & E & RE & LN & AC).
  pose proof (trace_app p (u ++ [i]) w s0) as TA. rewrite <- E in TA. fold tr in TA.
  pose proof P as P1. rewrite E in P1. pose proof (proto_app p _ _ _ P1) as P2.
  fold tr in NW. rewrite TA, nw_app in NW. apply andb_prop in NW. destruct NW as [NU NV]. cbn [app] in NV.
  pose proof (nw_ready _ _ _ _ NV) as FV. fold tr in LA. rewrite TA in LA. pose proof (latency_app _ _ _ GL LA) as LA1.
  assert (LU : length u = lat_next p Lt (accepted (trace_of p s0 u))).
  { destruct (schedule total (u ++ [i]) s0 P2 NU LA1) as [S1 _].
    { rewrite AC. pose proof (firstn_le_length (S n) (accepted tr)). fold tr. lia. }
    rewrite acc_snoc in S1 by auto. unfold lat_starts in S1. rewrite starts_snoc in S1. unfold accept_cycles in S1. rewrite trace_snoc, where_app in S1.
    cbn [cycles_where fst] in S1. rewrite RE, app_nil_r in S1. apply app_inj_tail in S1. destruct S1 as [_ S1]. rewrite trace_length in S1. exact S1. }
  pose proof (lat_answered_iff p W Lt GL w u i s0 P1 RE FV LA) as B. cbv zeta in B. rewrite <- TA in B.
  assert (ET : t = (length u + lat_service p Lt (i_req i) (made p (x_after p x_empty (accepted (trace_of p s0 u))) (i_req i)))%nat).
  { rewrite LU. assert (EA : accepted tr = accepted (trace_of p s0 (u ++ [i])) ++ skipn (S n) (accepted tr)) by (rewrite AC; fold tr; symmetry; apply firstn_skipn).
    rewrite EA, acc_snoc in NE by auto. unfold lat_ends in NE.
    assert (AP : forall R1 R2 t0 x0, exists l, lat_ends_from p Lt t0 x0 (R1 ++ R2) = lat_ends_from p Lt t0 x0 R1 ++ l).
    { induction R1 as [|a R1 IH1]; intros R2 t0 x0; [eexists; reflexivity|]. cbn [app lat_ends_from]. destruct (IH1 R2 (t0 + lat_gap p Lt x0 a)%nat (snd (x_step p x0 a))) as (l & ->). eexists. reflexivity. }
    destruct (AP (accepted (trace_of p s0 u) ++ [i_req i]) (skipn (S n) (accepted tr)) (N.to_nat (total_lines p)) x_empty) as (l & EL). rewrite EL, ends_snoc in NE.
    rewrite nth_error_app1 in NE by (rewrite app_length, ends_len; cbn; lia).
    rewrite nth_error_app2 in NE by (rewrite ends_len; lia). rewrite ends_len, LN, Nat.sub_diag in NE. cbn [nth_error] in NE. inversion NE. reflexivity. }
  rewrite acc_snoc, app_length in B by auto. cbn [length] in B. rewrite LN in B.
  assert (LI : length is = (length u + 1 + length w)%nat) by (rewrite E, !app_length; cbn; lia).
  rewrite LI, ET. fold tr. split; intros H; [|]; (assert (n + 1 <= length (responses tr) <-> _)%nat by exact B); lia.
Qed.
Lemma ends_app : forall R1 R2 t0 x0, exists l, lat_ends_from p Lt t0 x0 (R1 ++ R2) = lat_ends_from p Lt t0 x0 R1 ++ l.
Proof.
  induction R1 as [|a R1 IH1]; intros R2 t0 x0; [eexists; reflexivity|]. cbn [app lat_ends_from].
  destruct (IH1 R2 (t0 + lat_gap p Lt x0 a)%nat (snd (x_step p x0 a))) as (l & ->). eexists. reflexivity.
Qed.
Theorem answers : forall total is s0, proto_run p s0 is -> prompt total [] (trace_of p s0 is) = true -> latency Lt (trace_of p s0 is) ->
  let tr := trace_of p s0 is in (length (accepted tr) <= total)%nat ->
  answer_cycles tr = filter (fun t => Nat.ltb t (length is)) (lat_ends p Lt (accepted tr)).
Proof.
  intros total. induction is as [|j is IH] using rev_ind; intros s0 P NW LA tr LT; [reflexivity|].
  pose proof (nth_answered total _ s0 P NW LA LT) as N2. fold tr in N2.
  rewrite (filter_firstn _ _ _ N2).
  pose proof (proto_app p _ _ _ P) as PP.
  assert (TR : tr = trace_of p s0 is ++ [(j, output p (fst (run p s0 is)) j)]) by apply trace_snoc.
  rewrite trace_snoc, nw_app in NW. apply andb_prop in NW. destruct NW as [NW _].
  assert (LE : (length (accepted (trace_of p s0 is)) <= total)%nat) by (rewrite TR, accepted_app, app_length in LT; lia).
  assert (LA0 : latency Lt (trace_of p s0 is)) by (fold tr in LA; rewrite TR in LA; exact (latency_app _ _ _ GL LA)).
  pose proof (nth_answered total _ s0 PP NW LA0 LE) as N1. specialize (IH s0 PP NW LA0 LE). cbv zeta in IH.
  rewrite (filter_firstn _ _ _ N1) in IH.
  destruct (ends_app (accepted (trace_of p s0 is)) (accepted [(j, output p (fst (run p s0 is)) j)]) (N.to_nat (total_lines p)) x_empty) as (l & EL).
  rewrite <- accepted_app, <- TR in EL. fold (lat_ends p Lt (accepted (trace_of p s0 is))) in EL. fold (lat_ends p Lt (accepted tr)) in EL.
  pose proof (proto_inflight p W s0 is PP) as IF. cbv zeta in IF.
  assert (LEN : length (lat_ends p Lt (accepted (trace_of p s0 is))) = length (accepted (trace_of p s0 is))) by apply ends_len.
  assert (F1 : firstn (length (responses (trace_of p s0 is))) (lat_ends p Lt (accepted tr)) = answer_cycles (trace_of p s0 is)).
  { rewrite IH, EL, firstn_app. replace (length (responses (trace_of p s0 is)) - length (lat_ends p Lt (accepted (trace_of p s0 is))))%nat with 0%nat by lia. cbn [firstn]. apply app_nil_r. }
  set (n := length (responses (trace_of p s0 is))) in *.
  assert (AC : answer_cycles tr = answer_cycles (trace_of p s0 is) ++ if is_some (o_resp (output p (fst (run p s0 is)) j)) then [length is] else []).
  { rewrite TR. unfold answer_cycles. rewrite where_app. cbn [cycles_where snd]. rewrite trace_length. destruct (o_resp (output p (fst (run p s0 is)) j)); auto. }
  assert (RL : length (responses tr) = (n + if is_some (o_resp (output p (fst (run p s0 is)) j)) then 1 else 0)%nat).
  { rewrite TR, responses_app, app_length. fold n. f_equal. unfold responses. cbn [flat_map snd]. destruct (o_resp (output p (fst (run p s0 is)) j)); auto. }
  rewrite AC, <- F1. destruct (is_some (o_resp (output p (fst (run p s0 is)) j))) eqn:OR; [|rewrite RL, Nat.add_0_r, app_nil_r; auto].
  assert (L : (n < length (accepted tr))%nat).
  { pose proof (proto_inflight p W s0 _ P) as IF2. cbv zeta in IF2. fold tr in IF2. lia. }
  rewrite <- (ends_len (accepted tr) (N.to_nat (total_lines p)) x_empty) in L. fold (lat_ends p Lt (accepted tr)) in L.
  destruct (nth_error (lat_ends p Lt (accepted tr)) n) as [t|] eqn:NE; [|apply nth_error_None in NE; lia].
  assert (ET : t = length is).
  { pose proof (N2 n t NE) as Q2. rewrite app_length in Q2. cbn [length] in Q2.
    destruct (Nat.lt_ge_cases n (length (accepted (trace_of p s0 is)))) as [LA9|GA].
    - assert (NE1 : nth_error (lat_ends p Lt (accepted (trace_of p s0 is))) n = Some t) by (rewrite EL, nth_error_app1 in NE by lia; auto).
      pose proof (N1 n t NE1). fold n in H. lia.
    - exfalso. (* the request accepted in this very cycle is not answered *)
      assert (n = length (accepted (trace_of p s0 is))) by lia.
      assert (AJ : i_req_en j = true).
      { destruct (i_req_en j) eqn:X; auto. exfalso. unfold lat_ends in L. rewrite ends_len in L. rewrite TR, accepted_app, acc_one, app_length in L. cbn [fst] in L. rewrite X in L. cbn [length] in L. lia. }
      pose proof (proto_answered_iff p W [] is j s0) as B. rewrite app_nil_r in B. specialize (B P AJ (Forall_nil _)). cbv zeta in B.
      change (trace_of p (fst (run p s0 (is ++ [j]))) []) with (@nil (inp * outp)) in B. rewrite app_nil_r in B. fold tr in B. cbn [productive_cycles] in B.
      assert (LAT : (length (accepted tr) <= length (responses tr))%nat).
      { rewrite RL, TR, accepted_app, acc_one, app_length. cbn [fst]. rewrite AJ. cbn [length]. lia. }
      apply B in LAT. pose proof (service_ge2 p (i_req j)). pose proof (service0 p (i_req j) (made p (x_after p x_empty (accepted (trace_of p s0 is))) (i_req j))). lia. }
  subst t. rewrite RL. replace (n + 1)%nat with (S n) by lia. symmetry. apply Latency.firstn_snoc. auto.
Qed.
End P.

Section Q.
Variable p : params.
(** What latency costs. *)
Lemma lat_next_waits : forall L R t x, lat_next_from p L t x R = (next_from p t x R + (L - 1) * waits_from p x R)%nat.
Proof.
  intros L. induction R as [|r R IH]; intros t x; cbn [lat_next_from next_from waits_from]; [lia|].
  rewrite IH. unfold lat_gap.
  assert (X : forall R a b y, next_from p (a + b) y R = (next_from p a y R + b)%nat).
  { induction R0 as [|q R0 IH0]; intros a b y; cbn [next_from]; auto. rewrite <- IH0. f_equal. lia. }
  replace (t + (gap p x r + (L - 1) * bursts r (made p x r)))%nat with ((t + gap p x r) + (L - 1) * bursts r (made p x r))%nat by lia.
  rewrite X. lia.
Qed.
Lemma lat_starts_nth : forall L R n t x, nth_error (lat_starts_from p L t x R) n =
  if Nat.ltb n (length R) then Some (lat_next_from p L t x (firstn n R)) else None.
Proof.
  intros L. induction R as [|r R IH]; intros [|n] t x; cbn [lat_starts_from nth_error length firstn lat_next_from]; auto.
  rewrite IH. change (Nat.ltb (S n) (S (length R))) with (Nat.ltb n (length R)). auto.
Qed.
Lemma lat_next1 : forall R, lat_next p 1 R = next_start p R.
Proof. intros. unfold lat_next, next_start. rewrite lat_next_waits. lia. Qed.

Hypothesis W : wf_params p.
(** The [n]-th request of a program is accepted [L]-1 cycles later for every wait before it. *)
Theorem latency_cost : forall L total s0 is, (1 <= L)%nat -> proto_run p s0 is ->
  let tr := trace_of p s0 is in prompt total [] tr = true -> latency L tr -> (length (accepted tr) <= total)%nat ->
  forall n, (n < length (accepted tr))%nat ->
  nth_error (accept_cycles tr) n = Some (next_start p (firstn n (accepted tr)) + (L - 1) * mem_waits p (firstn n (accepted tr)))%nat.
Proof.
  intros L total s0 is G P tr NW LA LT n LN. destruct (schedule p W L G total is s0 P NW LA LT) as [E _]. fold tr in E.
  rewrite E. unfold lat_starts. rewrite lat_starts_nth. rewrite (proj2 (Nat.ltb_lt _ _) LN). rewrite lat_next_waits. auto.
Qed.
End Q.

(** Executable. *)
Definition latencyb (L : nat) (tr : trace) : bool :=
  forallb (fun t => match nth_error tr t with Some io => Bool.eqb (i_mresp_en (fst io)) (Nat.leb L t && sent_at tr (t - L)) | None => true end) (seq 0 (length tr)).
Lemma latencyb_ok : forall L tr, latencyb L tr = true -> latency L tr.
Proof.
  intros L tr H t io E. unfold latencyb in H. rewrite forallb_forall in H.
  assert (T : (t < length tr)%nat) by (apply nth_error_Some; congruence).
  specialize (H t). rewrite E in H. apply Bool.eqb_prop. apply H. apply in_seq. lia.
Qed.
