(** A memory of fixed latency (C63): the schedule. *)
From Coq Require Import NArith PeanoNat List Bool Lia.
From Verif Require Import Bits Params Msg Rtl Mem Traffic ParamsProofs RtlLemmas Spec System SysProofs SysFacts Facts1 Facts2 Facts3 Progress Hide Obliv Proto LiveSpec Live TimeSpec Service Service2 RunTime
  ExactSpec Exact2 ScheduleSpec Schedule Schedule2 LatSpec Lat Lat2.
Import ListNotations.
Open Scope nat_scope.

Section P.
Variable p : params.
Hypothesis W : wf_params p.
Variable L : nat.
Hypothesis G : 1 <= L.

Lemma proto_typed : forall s0 is, proto_run p s0 is -> answers_typed (trace_of p s0 is).
Proof. intros s0 is (_ & _ & H). auto. Qed.

(** The cycles in which the cache has waited. *)
Lemma stage_wait : forall is2 is i s0, proto_run p s0 ((is ++ [i]) ++ is2) -> i_req_en i = true ->
  Forall (fun j => ready j = true) is2 ->
  let tr1 := trace_of p s0 (is ++ [i]) in let s1 := fst (run p s0 (is ++ [i])) in let tr2 := trace_of p s1 is2 in
  let M := made p (x_after p x_empty (accepted (trace_of p s0 is))) (i_req i) in
  latency L (tr1 ++ tr2) -> accepted tr2 = [] ->
  exists U, productive_cycles tr1 tr2 + U = length is2 /\ wst L (fl_of (i_req i)) M (length (memreqs tr2)) (que L (tr1 ++ tr2)) U.
Proof.
  induction is2 as [|j is2 IH] using rev_ind; intros is i s0 P RE F tr1 s1 tr2 M LA NA.
  - exists 0. split; [reflexivity|]. unfold tr2 in *. change (trace_of p s1 []) with (@nil (inp * outp)) in *. rewrite app_nil_r in LA |- *.
    destruct (proto_stage p W [] is i s0 P RE eq_refl) as (O1 & _). fold tr1 in O1. rewrite app_nil_r in P.
    pose proof (que_outst L tr1 G (proto_typed _ _ P) LA) as Q. rewrite O1 in Q. symmetry in Q. apply ct0 in Q. rewrite que_len in Q. rewrite Q.
    destruct (fl_of (i_req i)) eqn:FL.
    + apply (wst_conv L true M 0 _ ((L - 1) * 0)); [apply w_f0; auto | auto | lia].
    + apply w_r0; auto.
  - pose proof P as P'. rewrite app_assoc in P'. pose proof (proto_app p _ _ _ P') as P1.
    apply Forall_app in F. destruct F as [F1 F2]. pose proof (Forall_inv F2) as RJ. cbn beta in RJ.
    set (t2 := trace_of p s1 is2) in *. set (sx := fst (run p s1 is2)).
    assert (E2 : tr2 = t2 ++ [(j, output p sx j)]) by (unfold tr2, t2, sx; apply trace_snoc).
    assert (NA2 : accepted t2 = []).
    { rewrite E2, accepted_app in NA. destruct (accepted t2); auto. discriminate NA. }
    assert (LA2 : latency L ((tr1 ++ t2) ++ [(j, output p sx j)])) by (rewrite <- app_assoc, <- E2; auto).
    pose proof (latency_app _ _ _ G LA2) as LA1.
    destruct (IH is i s0 P1 RE F1 LA1 NA2) as (U & EU & WS). fold tr1 s1 t2 M in EU, WS.
    assert (TX1 : tr1 ++ t2 = trace_of p s0 ((is ++ [i]) ++ is2)) by (unfold tr1, t2, s1; symmetry; apply trace_app).
    assert (TX2 : tr1 ++ tr2 = trace_of p s0 ((is ++ [i]) ++ is2 ++ [j])) by (unfold tr1, tr2, s1; symmetry; apply trace_app).
    pose proof (proto_typed _ _ P1) as TY1. rewrite <- TX1 in TY1. pose proof (proto_typed _ _ P) as TY2. rewrite <- TX2 in TY2.
    pose proof (que_outst L _ G TY1 LA1) as Q1. pose proof (que_outst L _ G TY2 LA) as Q2.
    pose proof (que_hd _ _ _ G LA2) as HD. cbn [fst] in HD.
    assert (QS : que L (tr1 ++ tr2) = tl (que L (tr1 ++ t2)) ++ [is_some (o_mreq (output p sx j))]).
    { rewrite E2, app_assoc. apply que_snoc; auto. }
    destruct (proto_stage p W is2 is i s0 P1 RE NA2) as (_ & _ & S2 & _ & S4 & _). fold tr1 s1 t2 sx M in S2, S4.
    destruct (proto_stage p W _ is i s0 P RE NA) as (_ & T1 & _ & T3 & _). fold tr1 s1 tr2 M in T1, T3.
    assert (NM : length (memreqs tr2) = length (memreqs t2) + (if is_some (o_mreq (output p sx j)) then 1 else 0)).
    { rewrite E2, memreqs_app, app_length. f_equal. unfold memreqs. cbn [flat_map snd]. destruct (o_mreq (output p sx j)); auto. }
    assert (FLF : fl_of (i_req i) = true <-> cq_type (i_req i) = T_FLUSH) by (unfold fl_of; apply N.eqb_eq).
    assert (FLN : fl_of (i_req i) = false -> cq_type (i_req i) <> T_FLUSH) by (intros X Y; apply FLF in Y; congruence).
    assert (PR : productive (tr1 ++ t2) j = Nat.eqb (ct (que L (tr1 ++ t2))) 0 || hd false (que L (tr1 ++ t2))).
    { unfold productive. unfold ready in RJ. rewrite RJ, <- HD, <- Q1. destruct (outstanding (tr1 ++ t2)); auto. }
    exists (U + if Nat.eqb (ct (que L (tr1 ++ t2))) 0 || hd false (que L (tr1 ++ t2)) then 0 else 1). split.
    + rewrite E2, productive_app. cbn [productive_cycles fst]. rewrite PR, app_length. cbn [length].
      destruct (Nat.eqb (ct (que L (tr1 ++ t2))) 0 || hd false (que L (tr1 ++ t2))); lia.
    + rewrite NM, QS. apply wst_step; auto.
      * intros FL. rewrite <- QS, <- Q2. apply T3. apply FLF; auto.
      * intros _. rewrite <- NM. auto.
Qed.

Theorem lat_ready_iff : forall is2 is i j s0, proto_run p s0 ((is ++ [i]) ++ is2) -> i_req_en i = true ->
  Forall (fun j => ready j = true) is2 -> ready j = true ->
  let tr1 := trace_of p s0 (is ++ [i]) in let s1 := fst (run p s0 (is ++ [i])) in let tr2 := trace_of p s1 is2 in
  latency L (tr1 ++ tr2) -> accepted tr2 = [] ->
  o_req_rdy (output p (fst (run p s1 is2)) j) = true <->
  lat_gap p L (x_after p x_empty (accepted (trace_of p s0 is))) (i_req i) <= length is2 + 1.
Proof.
  intros is2 is i j s0 P RE F RJ tr1 s1 tr2 LA NA. set (x0 := x_after p x_empty (accepted (trace_of p s0 is))).
  pose proof (proto_ready_iff p W is2 is i j s0 P RE F RJ NA) as B. cbv zeta in B. fold tr1 s1 tr2 x0 in B.
  destruct (stage_wait is2 is i s0 P RE F LA NA) as (U & EU & WS). fold tr1 s1 tr2 x0 in EU, WS.
  destruct (proto_stage p W is2 is i s0 P RE NA) as (_ & S1 & _ & _ & _ & S5 & _). fold tr1 s1 tr2 x0 in S1, S5.
  assert (TX : tr1 ++ tr2 = trace_of p s0 ((is ++ [i]) ++ is2)) by (unfold tr1, tr2, s1; symmetry; apply trace_app).
  unfold lat_gap. pose proof (wst_le _ _ _ _ _ _ G WS S1) as LE. split.
  - intros RY. destruct (S5 j RJ RY) as (EM & EO & _). rewrite EM in WS.
    assert (CZ : ct (que L (tr1 ++ tr2)) = 0).
    { rewrite <- que_outst; [rewrite EO; auto | auto | rewrite TX; apply proto_typed; auto | auto]. }
    pose proof (wst_eq _ _ _ _ _ G WS CZ). apply B in RY. lia.
  - intros H. apply B. lia.
Qed.

Lemma first_acc : forall is s, accepted (trace_of p s is) = [] \/
  exists u j v, is = u ++ j :: v /\ accepted (trace_of p s u) = [] /\ i_req_en j = true.
Proof.
  induction is as [|i is IH]; intros s; [left; auto|].
  destruct (i_req_en i) eqn:RE; [right; exists [], i, is; auto|].
  destruct (IH (next p s i)) as [H | (u & j & v & E & A & R)].
  - left. rewrite trace_cons. unfold accepted in *. cbn [flat_map fst]. rewrite RE, H. auto.
  - right. exists (i :: u), j, v. rewrite E. split; auto. split; auto. rewrite trace_cons. unfold accepted in *. cbn [flat_map fst]. rewrite RE, A. auto.
Qed.
Lemma prod_le : forall tr t0, productive_cycles t0 tr <= length tr.
Proof. induction tr as [|x tr IH]; intros t0; cbn [productive_cycles length]; auto. specialize (IH (t0 ++ [x])). destruct (productive t0 (fst x)); lia. Qed.

Theorem lat_answered_iff : forall is2 is i s0, proto_run p s0 ((is ++ [i]) ++ is2) -> i_req_en i = true ->
  Forall (fun j => ready j = true) is2 ->
  let tr1 := trace_of p s0 (is ++ [i]) in let s1 := fst (run p s0 (is ++ [i])) in let tr2 := trace_of p s1 is2 in
  latency L (tr1 ++ tr2) ->
  length (accepted tr1) <= length (responses (tr1 ++ tr2)) <->
  lat_service p L (i_req i) (made p (x_after p x_empty (accepted (trace_of p s0 is))) (i_req i)) <= length is2.
Proof.
  intros is2 is i s0 P RE F tr1 s1 tr2 LA. set (x0 := x_after p x_empty (accepted (trace_of p s0 is))). set (r := i_req i).
  pose proof (proto_answered_iff p W is2 is i s0 P RE F) as B. cbv zeta in B. fold tr1 s1 tr2 x0 r in B.
  assert (TX : tr1 ++ tr2 = trace_of p s0 ((is ++ [i]) ++ is2)) by (unfold tr1, tr2, s1; symmetry; apply trace_app).
  unfold lat_service. rewrite B. destruct (first_acc is2 s1) as [NA | (u & j & v & E & NA & RJE)].
  - fold tr2 in NA. destruct (stage_wait is2 is i s0 P RE F LA NA) as (U & EU & WS). fold tr1 s1 tr2 x0 r in EU, WS.
    destruct (proto_stage p W is2 is i s0 P RE NA) as (_ & S1 & _ & _ & _ & _ & S6). fold tr1 s1 tr2 x0 r in S1, S6.
    pose proof (wst_le _ _ _ _ _ _ G WS S1) as LE. split; [|lia].
    intros H. destruct S6 as [EM EO]; [apply B; auto|]. rewrite EM in WS.
    assert (CZ : ct (que L (tr1 ++ tr2)) = 0).
    { rewrite <- que_outst; [rewrite EO; auto | auto | rewrite TX; apply proto_typed; auto | auto]. }
    pose proof (wst_eq _ _ _ _ _ G WS CZ). lia.
  - (* the next request is accepted in between *)
    set (t2 := trace_of p s1 u) in *. set (sx := fst (run p s1 u)).
    assert (E2 : tr2 = t2 ++ (j, output p sx j) :: trace_of p (next p sx j) v).
    { unfold tr2. rewrite E, trace_app, trace_cons. auto. }
    pose proof P as P'. rewrite E in P'. rewrite app_assoc in P'. pose proof (proto_app p _ _ _ P') as P1.
    rewrite E in F. apply Forall_app in F. destruct F as [F1 F2]. pose proof (Forall_inv F2) as RJ. cbn beta in RJ.
    assert (TX1 : tr1 ++ t2 = trace_of p s0 ((is ++ [i]) ++ u)) by (unfold tr1, t2, s1; symmetry; apply trace_app).
    assert (LA1 : latency L (tr1 ++ t2)) by (rewrite E2, app_assoc in LA; exact (latency_app _ _ _ G LA)).
    destruct (stage_wait u is i s0 P1 RE F1 LA1 NA) as (U & EU & WS). fold tr1 s1 t2 x0 r in EU, WS.
    destruct (proto_stage p W u is i s0 P1 RE NA) as (_ & S1 & _ & _ & _ & S5 & _). fold tr1 s1 t2 x0 r sx in S1, S5.
    assert (RY : o_req_rdy (output p sx j) = true).
    { destruct P as (_ & CL & _). rewrite <- TX, E2 in CL. apply Forall_app in CL. destruct CL as [_ CL]. apply Forall_app in CL. destruct CL as [_ CL].
      apply Forall_inv in CL. cbn [fst snd] in CL. apply CL; auto. }
    destruct (S5 j RJ RY) as (EM & EO & EN). rewrite EM in WS.
    assert (CZ : ct (que L (tr1 ++ t2)) = 0).
    { rewrite <- que_outst; [rewrite EO; auto | auto | rewrite TX1; apply proto_typed; auto | auto]. }
    pose proof (wst_eq _ _ _ _ _ G WS CZ) as EQU.
    pose proof (proto_ready_iff p W u is i j s0 P1 RE F1 RJ NA) as BR. cbv zeta in BR. fold tr1 s1 t2 x0 r sx in BR. apply BR in RY. clear BR.
    pose proof (gap_ge p x0 r) as GG.
    assert (LEN : length is2 = length u + S (length v)) by (rewrite E, app_length; auto).
    assert (PJ : productive (tr1 ++ t2) j = true) by (unfold productive; unfold ready in RJ; rewrite RJ, EO; auto).
    assert (PC : productive_cycles tr1 tr2 = productive_cycles tr1 t2 + 1 + productive_cycles ((tr1 ++ t2) ++ [(j, output p sx j)]) (trace_of p (next p sx j) v)).
    { rewrite E2, productive_app. cbn [productive_cycles fst]. rewrite PJ. lia. }
    pose proof (prod_le (trace_of p (next p sx j) v) ((tr1 ++ t2) ++ [(j, output p sx j)])) as PL. rewrite trace_length in PL.
    split; [lia|]. intros H. destruct v as [|h v]; [cbn [length] in *; lia|].
    assert (O2 : outstanding ((tr1 ++ t2) ++ [(j, output p sx j)]) = []).
    { assert (TX2 : ((tr1 ++ t2) ++ [(j, output p sx j)]) ++ trace_of p (next p sx j) (h :: v) = trace_of p s0 ((is ++ [i]) ++ is2)).
      { rewrite <- TX, E2, <- !app_assoc. auto. }
      pose proof (proto_typed _ _ P) as TY. rewrite <- TX2 in TY. apply typed_app in TY. apply length_zero_iff_nil.
      pose proof (typed_le _ TY) as LE1. pose proof (typed_app _ _ TY) as TY0. pose proof (typed_le _ TY0) as LE0.
      unfold outstanding in *. rewrite skipn_length. apply length_zero_iff_nil in EO. rewrite skipn_length in EO.
      assert (E9 : memreqs ((tr1 ++ t2) ++ [(j, output p sx j)]) = memreqs (tr1 ++ t2)).
      { rewrite (memreqs_app (tr1 ++ t2)). unfold memreqs at 2. cbn [flat_map snd]. rewrite EN. cbn [opt_list app]. apply app_nil_r. }
      rewrite E9 in *. rewrite (memresps_app (tr1 ++ t2)), app_length in *. lia. }
    rewrite trace_cons in PC. cbn [productive_cycles fst] in PC.
    assert (PH : productive ((tr1 ++ t2) ++ [(j, output p sx j)]) h = true).
    { unfold productive. rewrite O2. pose proof (Forall_inv (Forall_inv_tail F2)) as RH. cbn beta in RH. unfold ready in RH. rewrite RH. auto. }
    rewrite PH in PC. lia.
Qed.
End P.
