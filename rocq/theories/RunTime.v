(** How long a program takes (C60). *)
From Coq Require Import NArith PeanoNat Wf_nat List Bool Lia.
From Verif Require Import Bits Params Msg Units Rtl Mem Tl Traffic ParamsProofs RtlLemmas RefineInv RefineStall RefineReq RefineAdv1 RefineAdv2 RefineAdv3
  RefineProofs Spec System SysProofs SysFacts Facts1 Facts2 TrafProofs Facts3 Progress Hide Obliv Proto LiveSpec Live TimeSpec Service Service2.
Import ListNotations.
Open Scope N_scope.

Section P.
Variable p : params.
Hypothesis W : wf_params p.

(** One more cycle of a run in which [i_req i] was the last request accepted before [j]. *)
Lemma run_cycle : forall is2 is i j s0 m0 m rq rs, sys_run p s0 ((is ++ [i]) ++ is2 ++ [j]) m0 m rq rs -> i_req_en i = true ->
  let tr1 := trace_of p s0 (is ++ [i]) in let s1 := fst (run p s0 (is ++ [i])) in
  let t2 := trace_of p s1 is2 in let sx := fst (run p s1 is2) in let o := output p sx j in
  trace_of p s1 (is2 ++ [j]) = t2 ++ [(j, o)] /\
  exists m1 rq1 rs1, sys_run p s0 ((is ++ [i]) ++ is2) m0 m1 rq1 rs1 /\
  ((length (responses (tr1 ++ t2)) < length (accepted tr1))%nat ->
   exists a x k, let n := N.of_nat (length is2) in let r := i_req i in
     k = N.of_nat (length (memreqs t2)) /\ svc p r k <= n + x /\ 1 <= x /\
     (i_req_en j = true -> accepted t2 = [] -> x <= 2) /\ phase p sx a /\
     ((length (accepted tr1) <= length (responses (tr1 ++ t2 ++ [(j, o)])))%nat -> x = 1 /\ o_mreq o = None)).
Proof.
  intros is2 is i j s0 m0 m rq rs R RE tr1 s1 t2 sx o. split; [apply trace_snoc|].
  pose proof R as RR. rewrite app_assoc in RR.
  destruct (sys_app p _ _ _ _ _ _ _ RR) as (m1 & rq1 & rs1 & R1 & M2 & C2). exists m1, rq1, rs1. split; [auto|]. intros UN.
  destruct (service_inv p W is2 is i s0 m0 m1 rq1 rs1 R1 RE UN) as (m9 & rq9 & rs9 & a9 & ST9 & CU9 & a & x & ST & LF & _ & _ & LB).
  fold s1 tr1 t2 in ST, LF, LB.
  assert (ES : fst (run p s0 ((is ++ [i]) ++ is2)) = sx) by (unfold sx, s1; rewrite (run_app p (is ++ [i]) is2 s0); auto).
  rewrite ES in *. rewrite trace_one in M2, C2. fold o in M2, C2.
  assert (TX : tr1 ++ t2 = trace_of p s0 ((is ++ [i]) ++ is2)) by (unfold tr1, t2, s1; symmetry; apply trace_app).
  destruct (legal_snoc p _ _ _ _ (sys_legal0 p _ _ _ _ _ _ RR)) as [_ LG].
  rewrite <- (sys_outs p _ _ _ _ _ _ R1) in LG. rewrite ES in LG. rewrite <- TX in LG.
  destruct (stok_J p _ _ _ _ _ _ _ _ ST) as [_ OT]. rewrite OT in LG.
  assert (RL : (length (memresps (tr1 ++ t2)) <= length (memreqs (tr1 ++ t2)))%nat).
  { rewrite TX. eapply sys_resps_le; eauto. }
  assert (AN : accepted (tr1 ++ t2) <> []).
  { intros E. rewrite accepted_app in E. apply app_eq_nil in E. destruct E as [E _]. unfold tr1 in E. rewrite trace_snoc, accepted_app, acc_one in E. cbn [fst] in E.
    rewrite RE in E. destruct (accepted (trace_of p s0 is)); discriminate E. }
  destruct (stok_adv p W _ _ _ _ _ _ _ _ _ _ _ _ ST AN LG C2 RL M2) as (a' & PH & AC & PH' & ST'). fold o in AC.
  exists a, x. eexists. cbv zeta. split; [reflexivity|]. split; [exact LB|]. split; [exact (left_pos p _ _ _ _ _ _ _ _ LF)|]. split.
  { intros RJ NA2. destruct LF as [(L & todo & out & l & CU & KT & KO & TK & EX) | [(L & CU & KK & EX) | (L & KK & EX)]].
    - destruct (lg_req _ _ _ _ LG RJ) as [RDY _].
      assert (SS : ostall2 sx j = false).
      { destruct (req_rdy_inv p _ _ RDY) as (_ & ST01 & _). rewrite stall01_eq in ST01. apply orb_false_elim in ST01. apply ST01. }
      pose proof (cur_advance p W _ _ _ _ _ _ _ _ _ PH LG SS AC PH' CU KT KO) as CA. cbv zeta in CA.
      destruct CA as [(todo' & out' & l' & _ & _ & X & _) | [(_ & _ & X & _) | (_ & _ & C2' & _)]]; [congruence.. | lia].
    - rewrite EX. destruct (is_some (resp1 p sx)); lia.
    - lia. }
  split; [auto|]. intros DN.
  pose proof (left_step p W _ _ _ _ _ _ _ _ _ _ _ _ _ _ _ _ _ ST LG C2 RL M2 UN LF) as STEP. cbv zeta in STEP. fold o in STEP.
  rewrite app_assoc in DN.
  destruct STEP as [(_ & _ & NM & X1 & _) | (a0 & x' & _ & _ & _ & _ & _ & L)]; [split; [exact X1 | exact NM] | lia].
Qed.

(** Not answered before its time. *)
Theorem service_least : forall is2 is i j s0 m0 m rq rs, sys_run p s0 ((is ++ [i]) ++ is2 ++ [j]) m0 m rq rs -> i_req_en i = true ->
  let tr1 := trace_of p s0 (is ++ [i]) in let s1 := fst (run p s0 (is ++ [i])) in
  (length (responses (tr1 ++ trace_of p s1 is2)) < length (accepted tr1))%nat ->
  (length (accepted tr1) <= length (responses (tr1 ++ trace_of p s1 (is2 ++ [j]))))%nat ->
  (service p (i_req i) (length (memreqs (trace_of p s1 (is2 ++ [j])))) <= length (is2 ++ [j]))%nat.
Proof.
  intros is2 is i j s0 m0 m rq rs R RE tr1 s1 UN AN.
  destruct (run_cycle is2 is i j s0 m0 m rq rs R RE) as (ET & m1 & rq1 & rs1 & R1 & H). fold tr1 s1 in ET, H. rewrite ET in AN |- *.
  destruct (H UN) as (a & x & k & -> & LB & _ & _ & _ & D). cbv zeta in *. destruct (D AN) as [-> NM].
  rewrite memreqs_app, !app_length. unfold memreqs at 2. cbn [flat_map snd]. rewrite NM. cbn [opt_list app length]. rewrite Nat.add_0_r. rewrite <- svc_ok in LB. lia.
Qed.

(** The next request is not accepted before its time. *)
Lemma quiet_after : forall is j s0 m0 m rq rs, sys_run p s0 (is ++ [j]) m0 m rq rs ->
  (length (accepted (trace_of p s0 is)) <= length (responses (trace_of p s0 is)))%nat -> o_mreq (output p (fst (run p s0 is)) j) = None.
Proof.
  intros is j s0 m0 m rq rs R LE. destruct (sys_cycle p W _ _ _ _ _ _ _ R) as (m1 & rq1 & rs1 & a & a' & R1 & ST & LG & AC & ST' & MT).
  set (s := fst (run p s0 is)) in *.
  inversion ST as [c0 k CS PI NK A1 A2 A3 A4 EM EQ ES EA | a0 PH NK JA OA EA].
  - destruct AC as (b1 & b2 & b3 & Z1 & Z2 & _). unfold o_recv in Z1. subst a. unfold o_send in Z2. destruct (o_mreq (output p s j)) eqn:E; auto.
    destruct (i_mresp_en j); [inversion Z1|]. subst b1. destruct (o_resp (output p s j)); [contradiction|]. inversion Z2.
  - pose proof (counts p _ _ _ _ _ _ _ _ ST) as CN. destruct (a_cur a) eqn:CU; [lia|]. subst a0.
    pose proof (phase_none p _ _ PH CU) as PI. pose proof (id_mem2 _ _ _ PI) as M2.
    destruct (ostall2 s j) eqn:SS; [destruct (out_stall p s j SS) as [_ OM]; auto|]. destruct (out_nostall p s j SS) as [_ OM]. rewrite OM. auto.
Qed.
Lemma spacing_inv : forall is2 is i s0 m0 m rq rs, sys_run p s0 ((is ++ [i]) ++ is2) m0 m rq rs -> i_req_en i = true ->
  let tr1 := trace_of p s0 (is ++ [i]) in let s1 := fst (run p s0 (is ++ [i])) in let tr2 := trace_of p s1 is2 in
  accepted tr2 = [] ->
  (length (responses (tr1 ++ tr2)) < length (accepted tr1))%nat \/ (service p (i_req i) (length (memreqs tr2)) <= length is2)%nat.
Proof.
  induction is2 as [|j is2 IH] using rev_ind; intros is i s0 m0 m rq rs R RE tr1 s1 tr2 NA.
  - left. rewrite app_nil_r in R. unfold tr2. cbn [trace_of]. change (trace_of p s1 []) with (@nil (inp * outp)). rewrite app_nil_r.
    destruct (accept_lft p W _ _ _ _ _ _ _ R RE) as (a & ST & CU & _). pose proof (counts p _ _ _ _ _ _ _ _ ST) as CN. rewrite CU in CN. unfold tr1. lia.
  - destruct (run_cycle is2 is i j s0 m0 m rq rs R RE) as (ET & m1 & rq1 & rs1 & R1 & _). fold tr1 s1 in ET. fold tr2 in ET.
    assert (NA1 : accepted (trace_of p s1 is2) = []) by (rewrite ET, accepted_app in NA; apply app_eq_nil in NA; apply NA).
    specialize (IH _ _ _ _ _ _ _ R1 RE NA1). fold tr1 s1 in IH.
    destruct (Nat.lt_ge_cases (length (responses (tr1 ++ tr2))) (length (accepted tr1))) as [LT|GE]; [left; auto|right].
    destruct IH as [LT|LE]; [eapply service_least; eauto|].
    destruct (Nat.lt_ge_cases (length (responses (tr1 ++ trace_of p s1 is2))) (length (accepted tr1))) as [LT'|GE']; [eapply service_least; eauto|].
    rewrite app_length. cbn [length]. rewrite ET, memreqs_app, app_length. unfold memreqs at 2. cbn [flat_map snd].
    pose proof R as RR. rewrite app_assoc in RR.
    assert (Q : o_mreq (output p (fst (run p s0 ((is ++ [i]) ++ is2))) j) = None).
    { eapply quiet_after; eauto. rewrite trace_app. fold tr1 s1. rewrite accepted_app, NA1, app_nil_r. auto. }
    rewrite (run_app p (is ++ [i]) is2 s0) in Q. cbn [fst] in Q. fold s1 in Q. rewrite Q. cbn [opt_list app length]. rewrite Nat.add_0_r. lia.
Qed.
Theorem spacing : forall is2 is i j s0 m0 m rq rs, sys_run p s0 ((is ++ [i]) ++ is2 ++ [j]) m0 m rq rs -> i_req_en i = true ->
  let s1 := fst (run p s0 (is ++ [i])) in let tr2 := trace_of p s1 is2 in
  accepted tr2 = [] -> i_req_en j = true -> (service p (i_req i) (length (memreqs tr2)) <= length is2 + 2)%nat.
Proof.
  intros is2 is i j s0 m0 m rq rs R RE s1 tr2 NA RJ.
  destruct (run_cycle is2 is i j s0 m0 m rq rs R RE) as (ET & m1 & rq1 & rs1 & R1 & H). fold s1 in H. fold tr2 in H.
  destruct (spacing_inv is2 is i s0 m0 m1 rq1 rs1 R1 RE NA) as [LT|LE]; [|unfold tr2, s1; lia]. fold s1 in LT. fold tr2 in LT.
  destruct (H LT) as (a & x & k & -> & LB & _ & X2 & _). cbv zeta in *. specialize (X2 RJ NA). rewrite <- svc_ok in LB. lia.
Qed.

(** *** Programs, from below *)
Lemma least_app : forall A B, least_time p (A ++ B) = (least_time p A + least_time p B)%nat.
Proof. unfold least_time. induction A as [|r A IH]; intros B; cbn [app map fold_right]; [auto|]. rewrite IH. lia. Qed.
Lemma service0 : forall r n, (service p r 0 <= service p r n)%nat.
Proof. intros. apply service_mono. lia. Qed.
Lemma service_ge2 : forall r, (2 <= service p r 0)%nat.
Proof. intros r. unfold service. destruct (cq_type r =? T_INV); [lia|]. destruct (cq_type r =? T_FLUSH); lia. Qed.
(** the last acceptance *)
Lemma last_acc : forall is s0, accepted (trace_of p s0 is) = [] \/
  exists u i v, is = u ++ [i] ++ v /\ i_req_en i = true /\ accepted (trace_of p (fst (run p s0 (u ++ [i]))) v) = [] /\
    accepted (trace_of p s0 is) = accepted (trace_of p s0 u) ++ [i_req i].
Proof.
  induction is as [|i is IH] using rev_ind; intros s0; [left; auto|].
  rewrite trace_snoc, accepted_app, acc_one. cbn [fst]. destruct (i_req_en i) eqn:RE.
  - right. exists is, i, []. rewrite app_nil_r. auto.
  - rewrite app_nil_r. destruct (IH s0) as [E | (u & i' & v & E & RE' & NA & AC)]; [left; auto|right].
    exists u, i', (v ++ [i]). subst is. rewrite <- !app_assoc. split; auto. split; auto. split; auto.
    rewrite trace_snoc, accepted_app, acc_one. cbn [fst]. rewrite RE, NA. auto.
Qed.
Theorem accept_least : forall u j s0 m0 m rq rs, sys_run p s0 (u ++ [j]) m0 m rq rs -> i_req_en j = true ->
  (N.to_nat (total_lines p) + least_time p (accepted (trace_of p s0 u)) <= length u)%nat.
Proof.
  intros u. remember (length u) as n eqn:EN. revert u EN. induction n as [n IH] using lt_wf_ind. intros u -> j s0 m0 m rq rs R RJ.
  destruct (last_acc u s0) as [E | (v & i & w & E & RE & NA & AC)].
  - rewrite E. cbn [least_time map fold_right]. change (least_time p []) with 0%nat. rewrite Nat.add_0_r.
    destruct (Nat.lt_ge_cases (length u) (N.to_nat (total_lines p))) as [LT|GE]; auto. exfalso.
    destruct (sys_app p _ _ _ _ _ _ _ R) as (m1 & rq1 & rs1 & R1 & _ & C2).
    destruct (sys_init p W _ _ _ _ _ _ R1) as (_ & _ & _ & NR); [lia|]. rewrite trace_one in C2.
    inversion C2 as [|? ? C1 _]; subst. specialize (C1 RJ). cbn [fst snd] in C1. destruct C1 as [C1 _]. specialize (NR j). congruence.
  - subst u. rewrite AC, least_app. cbn [least_time map fold_right]. change (least_time p [i_req i]) with (busy p (i_req i) + 0)%nat.
    replace ((v ++ [i] ++ w) ++ [j]) with ((v ++ [i]) ++ w ++ [j]) in R by (rewrite <- !app_assoc; auto).
    pose proof (spacing w v i j s0 m0 m rq rs R RE NA RJ) as SP. pose proof (service0 (i_req i) (length (memreqs (trace_of p (fst (run p s0 (v ++ [i]))) w)))) as S0.
    destruct (sys_app p _ _ _ _ _ _ _ R) as (m1 & rq1 & rs1 & R1 & _).
    specialize (IH (length v)). rewrite !app_length in *. cbn [length] in *. specialize (IH ltac:(lia) v eq_refl i s0 m0 m1 rq1 rs1 R1 RE).
    unfold busy. pose proof (service_ge2 (i_req i)). lia.
Qed.

(** where the [n]-th request was accepted *)
Lemma nth_acc : forall is s0 n, (n < length (accepted (trace_of p s0 is)))%nat -> exists u i w, is = (u ++ [i]) ++ w /\ i_req_en i = true /\
  length (accepted (trace_of p s0 u)) = n /\ accepted (trace_of p s0 (u ++ [i])) = firstn (S n) (accepted (trace_of p s0 is)).
Proof.
  induction is as [|i is IH] using rev_ind; intros s0 n L; [cbn in L; lia|].
  rewrite trace_snoc, accepted_app, acc_one in L |- *. cbn [fst] in *. destruct (i_req_en i) eqn:RE.
  - destruct (Nat.eq_dec n (length (accepted (trace_of p s0 is)))) as [->|NE].
    + exists is, i, []. rewrite app_nil_r. split; auto. split; auto. split; auto. rewrite trace_snoc, accepted_app, acc_one. cbn [fst]. rewrite RE.
      rewrite firstn_all2; auto. rewrite app_length. cbn. lia.
    + rewrite app_length in L. cbn [length] in L. destruct (IH s0 n ltac:(lia)) as (u & i' & w & -> & RE' & LN & AC).
      exists u, i', (w ++ [i]). rewrite app_assoc. split; auto. split; auto. split; auto. rewrite AC, firstn_app.
      replace (S n - length (accepted (trace_of p s0 ((u ++ [i']) ++ w))))%nat with 0%nat by lia. cbn [firstn]. rewrite app_nil_r. auto.
  - rewrite app_nil_r in *. destruct (IH s0 n L) as (u & i' & w & -> & RE' & LN & AC). exists u, i', (w ++ [i]). rewrite app_assoc. auto.
Qed.
Theorem sys_least : forall is s0 m0 m rq rs, sys_run p s0 is m0 m rq rs -> responses (trace_of p s0 is) <> [] ->
  let tr := trace_of p s0 is in
  (N.to_nat (total_lines p) + least_time p (firstn (length (responses tr)) (accepted tr)) + 2 <= length is)%nat.
Proof.
  intros is s0 m0 m rq rs R NE tr. set (n := length (responses tr)).
  assert (NZ : (1 <= n)%nat) by (unfold n, tr; destruct (responses (trace_of p s0 is)); [congruence | cbn; lia]).
  destruct (sys_state p W _ _ _ _ _ _ R) as (a & ST). pose proof (counts p _ _ _ _ _ _ _ _ ST) as CN. fold tr n in CN.
  destruct (nth_acc is s0 (n - 1)) as (u & i & w & E & RE & LN & AC); [fold tr; lia|]. fold tr in AC.
  replace (S (n - 1)) with n in AC by lia. rewrite <- AC. rewrite trace_snoc, accepted_app, acc_one. cbn [fst]. rewrite RE.
  rewrite least_app. change (least_time p [i_req i]) with (busy p (i_req i) + 0)%nat.
  subst is. destruct (sys_app p _ _ _ _ _ _ _ R) as (m1 & rq1 & rs1 & R1 & _).
  pose proof (accept_least u i s0 m0 m1 rq1 rs1 R1 RE) as AL.
  assert (SV : (service p (i_req i) 0 <= length w)%nat).
  { clear AL. assert (DN : (length (accepted (trace_of p s0 (u ++ [i]))) <= length (responses (trace_of p s0 (u ++ [i]) ++ trace_of p (fst (run p s0 (u ++ [i]))) w)))%nat).
    { rewrite <- trace_app. fold tr n. rewrite AC, firstn_length. lia. }
    clear - W R RE DN. revert m rq rs R DN. induction w as [|j w IH] using rev_ind; intros m rq rs R DN.
    - exfalso. rewrite app_nil_r in R. destruct (accept_lft p W _ _ _ _ _ _ _ R RE) as (a & ST & CU & _). pose proof (counts p _ _ _ _ _ _ _ _ ST) as CN. rewrite CU in CN.
      change (trace_of p (fst (run p s0 (u ++ [i]))) []) with (@nil (inp * outp)) in DN. rewrite app_nil_r in DN. lia.
    - destruct (Nat.lt_ge_cases (length (responses (trace_of p s0 (u ++ [i]) ++ trace_of p (fst (run p s0 (u ++ [i]))) w))) (length (accepted (trace_of p s0 (u ++ [i]))))) as [LT|GE].
      + pose proof (service_least w u i j s0 m0 m rq rs R RE LT DN) as SL.
        pose proof (service0 (i_req i) (length (memreqs (trace_of p (fst (run p s0 (u ++ [i]))) (w ++ [j]))))). lia.
      + pose proof R as RR. rewrite app_assoc in RR. destruct (sys_app p _ _ _ _ _ _ _ RR) as (m1 & rq1 & rs1 & R1 & _).
        specialize (IH _ _ _ R1 GE). rewrite app_length. lia. }
  rewrite !app_length. cbn [length]. unfold busy. pose proof (service_ge2 (i_req i)). lia.
Qed.
Theorem proto_least : forall is s0, proto_run p s0 is -> responses (trace_of p s0 is) <> [] ->
  let tr := trace_of p s0 is in
  (N.to_nat (total_lines p) + least_time p (firstn (length (responses tr)) (accepted tr)) + 2 <= length is)%nat.
Proof.
  intros is s0 P NE tr. destruct (proto_lift p is s0 (fun _ => 0) P) as (is' & m & S & HI & AC).
  assert (L : length is' = length is) by (apply (f_equal (@length _)) in HI; rewrite !map_length in HI; auto).
  pose proof (hide_trace p _ _ s0 HI) as HT. destruct (hide_len _ _ HT) as (LR & _ & _).
  pose proof (sys_least is' s0 _ _ _ _ S) as X. cbv zeta in X. rewrite LR, L, AC in X. apply X.
  intros E. rewrite E in LR. fold tr in NE, LR. destruct (responses tr); [congruence | discriminate LR].
Qed.

(** the same for one request, over any memory *)
Theorem proto_not_earlier : forall is2 is i j s0, proto_run p s0 ((is ++ [i]) ++ is2 ++ [j]) -> i_req_en i = true ->
  let tr1 := trace_of p s0 (is ++ [i]) in let s1 := fst (run p s0 (is ++ [i])) in
  (length (responses (tr1 ++ trace_of p s1 is2)) < length (accepted tr1))%nat ->
  (length (accepted tr1) <= length (responses (tr1 ++ trace_of p s1 (is2 ++ [j]))))%nat ->
  (service p (i_req i) (length (memreqs (trace_of p s1 (is2 ++ [j])))) <= length (is2 ++ [j]))%nat.
Proof.
  intros is2 is i j s0 P RE tr1 s1 UN AN.
  destruct (lift2 p _ _ _ _ P) as (is' & i' & x & m & rq & S & HI & E1 & E2 & H1 & H2). fold tr1 s1 in H1, H2.
  rewrite map_app in E2. cbn [map] in E2. apply map_eq_app in E2. destruct E2 as (is2' & y & -> & E2 & E3).
  destruct y as [|j' [|? ?]]; try discriminate E3.
  destruct (hide_inE _ _ HI) as (EN & ET & _). rewrite RE in EN.
  pose proof (service_least _ _ _ _ _ _ _ _ _ S EN) as B. cbv zeta in B.
  destruct (hide_len _ _ H1) as (R1 & A1 & _). destruct (hide_len _ _ H2) as (R2 & _ & M2).
  assert (LE : length is2' = length is2) by (apply (f_equal (@length _)) in E2; rewrite !map_length in E2; auto).
  assert (H3 : map hide_io (trace_of p (fst (run p s0 (is' ++ [i']))) is2') = map hide_io (trace_of p s1 is2)).
  { pose proof H2 as HH. rewrite !trace_app, !map_app in HH. apply app_split in HH; [apply HH|]. rewrite !map_length, !trace_length. auto. }
  destruct (hide_len _ _ H3) as (R3 & _).
  rewrite !responses_app, !app_length in *. rewrite A1, R1, R2, R3, M2, (service_type p (i_req i)), LE in B by auto. auto.
Qed.
Theorem proto_spacing : forall is2 is i j s0, proto_run p s0 ((is ++ [i]) ++ is2 ++ [j]) -> i_req_en i = true ->
  let tr2 := trace_of p (fst (run p s0 (is ++ [i]))) is2 in
  accepted tr2 = [] -> i_req_en j = true -> (service p (i_req i) (length (memreqs tr2)) <= length is2 + 2)%nat.
Proof.
  intros is2 is i j s0 P RE tr2 NA RJ.
  destruct (lift2 p _ _ _ _ P) as (is' & i' & x & m & rq & S & HI & E1 & E2 & H1 & H2).
  rewrite map_app in E2. cbn [map] in E2. apply map_eq_app in E2. destruct E2 as (is2' & y & -> & E2 & E3).
  destruct y as [|j' [|? ?]]; try discriminate E3. 
  assert (HJ : hide_in j' = hide_in j) by exact (f_equal (hd (hide_in j)) E3).
  destruct (hide_inE _ _ HI) as (EN & ET & _). rewrite RE in EN. destruct (hide_inE _ _ HJ) as (EJ & _). rewrite RJ in EJ.
  pose proof (spacing _ _ _ _ _ _ _ _ _ S EN) as B. cbv zeta in B.
  assert (LE : length is2' = length is2) by (apply (f_equal (@length _)) in E2; rewrite !map_length in E2; auto).
  assert (H3 : map hide_io (trace_of p (fst (run p s0 (is' ++ [i']))) is2') = map hide_io tr2).
  { pose proof H2 as HH. rewrite !trace_app, !map_app in HH. apply app_split in HH; [apply HH|]. rewrite !map_length, !trace_length. auto. }
  destruct (hide_len _ _ H3) as (_ & A3 & M3). rewrite NA in A3.
  rewrite M3, (service_type p (i_req i)), LE in B by auto. apply B; auto. apply length_zero_iff_nil. exact A3.
Qed.

(** *** Programs, from above *)
Lemma most_app : forall A B, most_time p (A ++ B) = (most_time p A + most_time p B)%nat.
Proof. unfold most_time. induction A as [|r A IH]; intros B; cbn [app map fold_right]; [auto|]. rewrite IH. lia. Qed.
Lemma proto_ready0 : forall is i s0, proto_run p s0 is -> (N.to_nat (total_lines p) <= length is)%nat ->
  (length (accepted (trace_of p s0 is)) <= length (responses (trace_of p s0 is)))%nat ->
  i_resp_rdy i && i_mreq_rdy i = true -> o_req_rdy (output p (fst (run p s0 is)) i) = true.
Proof.
  intros is i s0 P TL LE RD. destruct (proto_lift p is s0 (fun _ => 0) P) as (is' & m & S & HI & AC).
  assert (L : length is' = length is) by (apply (f_equal (@length _)) in HI; rewrite !map_length in HI; auto).
  pose proof (hide_trace p _ _ s0 HI) as HT. destruct (oblivious p _ _ s0 s0 (ctl_refl s0) HI) as [_ CE].
  pose proof (obl_out p _ _ i i CE eq_refl) as HO.
  assert (Q : o_req_rdy (output p (fst (run p s0 is')) i) = o_req_rdy (output p (fst (run p s0 is)) i)) by exact (f_equal o_req_rdy HO).
  rewrite <- Q. destruct (hide_len _ _ HT) as (LR & LA & _). eapply sys_ready; eauto; lia.
Qed.
Lemma offer_len : forall total is s tr0, (offer_cycles total tr0 (trace_of p s is) <= length is)%nat.
Proof. intros. pose proof (offer_le total (trace_of p s is) tr0). pose proof (productive_le (trace_of p s is) tr0) as PL. rewrite trace_length in PL. lia. Qed.
Lemma most_inv : forall total is s0, proto_run p s0 is ->
  (total <= length (responses (trace_of p s0 is)))%nat \/
  (accepted (trace_of p s0 is) = [] /\ (offer_cycles total [] (trace_of p s0 is) <= N.to_nat (total_lines p))%nat) \/
  exists u i v, is = (u ++ [i]) ++ v /\ i_req_en i = true /\ accepted (trace_of p (fst (run p s0 (u ++ [i]))) v) = [] /\
    (offer_cycles total [] (trace_of p s0 (u ++ [i])) <= N.to_nat (total_lines p) + most_time p (accepted (trace_of p s0 u)) + 1)%nat /\
    (offer_cycles total (trace_of p s0 (u ++ [i])) (trace_of p (fst (run p s0 (u ++ [i]))) v) <= service p (i_req i) (max_traffic p (i_req i)))%nat.
Proof.
  intros total. induction is as [|j is IH] using rev_ind; intros s0 P.
  - right; left. split; [auto|cbn; lia].
  - pose proof (proto_app p _ _ _ P) as PP. specialize (IH s0 PP).
    rewrite trace_snoc. set (s := fst (run p s0 is)) in *.
    destruct (Nat.le_gt_cases total (length (responses (trace_of p s0 is)))) as [D|ND]; [left; rewrite responses_app, app_length; lia|].
    assert (ANS : (N.to_nat (total_lines p) <= length is)%nat -> (length (accepted (trace_of p s0 is)) <= length (responses (trace_of p s0 is)))%nat ->
      i_req_en j = false -> productive (trace_of p s0 is) j && offers total (trace_of p s0 is) (j, output p s j) = false).
    { intros TL LE EN. destruct (_ && _) eqn:G; auto. exfalso. apply andb_prop in G. destruct G as [G1 G2].
      assert (RD : i_resp_rdy j && i_mreq_rdy j = true) by (unfold productive in G1; apply andb_prop in G1; apply G1).
      pose proof (proto_ready0 is j s0 PP TL LE RD) as OR. fold s in OR. unfold offers in G2. cbn [fst snd] in G2. rewrite OR, EN in G2.
      cbn [implb orb] in G2. apply Nat.leb_le in G2. lia. }
    destruct IH as [IH | [(NA & L) | (u & i & v & E & RE & NA & L1 & L2)]]; [lia | |].
    + destruct (i_req_en j) eqn:EN.
      * right; right. exists is, j, []. rewrite app_nil_r. split; auto. split; auto. split; [reflexivity|]. split; [|cbn; lia].
        rewrite trace_snoc, offer_app, NA. cbn [app offer_cycles]. change (most_time p []) with 0%nat. match goal with |- context[if ?b then _ else _] => destruct b end; lia.
      * right; left. rewrite accepted_app, acc_one, NA. cbn [fst]. rewrite EN. split; auto.
        rewrite offer_app. cbn [app offer_cycles fst]. fold s in ANS.
        destruct (Nat.lt_ge_cases (offer_cycles total [] (trace_of p s0 is)) (N.to_nat (total_lines p))) as [LT|GE]; [match goal with |- context[if ?b then _ else _] => destruct b end; lia|].
        rewrite ANS; auto; [lia | |rewrite NA; cbn; lia]. pose proof (offer_len total is s0 []). lia.
    + right; right. pose proof (trace_app p (u ++ [i]) v s0) as TA. rewrite <- E in TA.
      assert (ES : fst (run p (fst (run p s0 (u ++ [i]))) v) = s) by (unfold s; rewrite E, (run_app p (u ++ [i]) v s0); auto).
      assert (AC : accepted (trace_of p s0 is) = accepted (trace_of p s0 u) ++ [i_req i]).
      { rewrite TA, accepted_app, NA, app_nil_r, trace_snoc, accepted_app, acc_one. cbn [fst]. rewrite RE. auto. }
      destruct (i_req_en j) eqn:EN.
      * exists is, j, []. rewrite app_nil_r. split; auto. split; auto. split; [reflexivity|]. split; [|cbn; lia].
        rewrite trace_snoc, offer_app, AC, most_app. cbn [app offer_cycles]. change (most_time p [i_req i]) with (service p (i_req i) (max_traffic p (i_req i)) + 1 + 0)%nat.
        rewrite TA, offer_app. cbn [app]. match goal with |- context[if ?b then _ else _] => destruct b end; lia.
      * exists u, i, (v ++ [j]). split; [rewrite E, <- app_assoc; auto|]. split; auto. split.
        { rewrite (trace_snoc p v), accepted_app, NA, acc_one. cbn [fst]. rewrite EN. auto. }
        split; auto. rewrite (trace_snoc p v), ES, offer_app. cbn [app offer_cycles fst]. rewrite <- TA.
        set (oc := offer_cycles total (trace_of p s0 (u ++ [i])) (trace_of p (fst (run p s0 (u ++ [i]))) v)) in *.
        destruct (Nat.lt_ge_cases oc (service p (i_req i) (max_traffic p (i_req i)))) as [LT|GE]; [match goal with |- context[if ?b then _ else _] => destruct b end; lia|].
        rewrite ANS; auto; [lia | |].
        { pose proof PP as P1. rewrite E in P1. destruct (proto_lift p ((u ++ [i]) ++ v) s0 (fun _ => 0) P1) as (is' & m & S & HI & _).
          destruct (Nat.lt_ge_cases (length is) (N.to_nat (total_lines p))) as [LT|]; auto. exfalso.
          assert (L : length is' = length is) by (apply (f_equal (@length _)) in HI; rewrite !map_length, <- E in HI; auto).
          destruct (sys_init p W _ _ _ _ _ _ S) as (NAC & _); [lia|].
          pose proof (hide_trace p _ _ s0 HI) as HT. destruct (hide_len _ _ HT) as (_ & LA & _). rewrite <- E, AC, NAC, app_length in LA. cbn [length] in LA. lia. }
        { rewrite E in PP. pose proof (proto_service_bound p W v u i s0 PP RE) as SB. cbv zeta in SB. rewrite <- TA in SB.
          destruct (Nat.le_gt_cases (length (accepted (trace_of p s0 (u ++ [i])))) (length (responses (trace_of p s0 is)))) as [AN|UN].
          - rewrite TA, accepted_app, NA, app_nil_r, <- TA. auto.
          - pose proof (proto_service_traffic p W v u i s0 PP RE) as MT. cbv zeta in MT. rewrite <- TA in MT. specialize (MT UN).
            pose proof (service_mono p (i_req i) _ _ MT) as SM.
            pose proof (offer_le total (trace_of p (fst (run p s0 (u ++ [i]))) v) (trace_of p s0 (u ++ [i]))) as OL. fold oc in OL.
            specialize (SB ltac:(lia)). lia. }
Qed.
Theorem proto_most : forall total is s0, proto_run p s0 is ->
  (N.to_nat (total_lines p) + most_time p (accepted (trace_of p s0 is)) < offer_cycles total [] (trace_of p s0 is))%nat ->
  (total <= length (responses (trace_of p s0 is)))%nat.
Proof.
  intros total is s0 P LT. destruct (most_inv total is s0 P) as [D | [(NA & L) | (u & i & v & E & RE & NA & L1 & L2)]]; auto.
  - rewrite NA in LT. change (most_time p []) with 0%nat in LT. lia.
  - subst is. rewrite (trace_app p (u ++ [i])) in LT. rewrite offer_app, accepted_app, NA, app_nil_r, (trace_snoc p u), accepted_app, acc_one in LT. cbn [fst] in LT.
    rewrite RE, most_app in LT. change (most_time p [i_req i]) with (service p (i_req i) (max_traffic p (i_req i)) + 1 + 0)%nat in LT.
    rewrite <- (trace_snoc p u) in LT. cbn [app] in LT. lia.
Qed.
End P.
