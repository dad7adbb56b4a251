(** Two cache levels: liveness. *)
From Coq Require Import NArith PeanoNat List Bool Lia.
From Verif Require Import Bits Params Msg Rtl Mem Spec System Traffic SysProofs SysFacts Facts1 Facts2 Facts3 Hide Proto Live Idle2 HierSpec Hier.
Import ListNotations.
Open Scope N_scope.

Section H.
Variables p1 p2 : params.
Hypothesis W1 : wf_params p1.
Hypothesis W2 : wf_params p2.
Hypothesis FT : fits p1 p2.
Notation stk := (stack p1 p2). Notation up := (upper p1 p2). Notation lo := (lower p1 p2).
Notation us := (up_state p1 p2). Notation ls := (lo_state p1 p2).

Lemma stack_app : forall a b s1 s2, stk s1 s2 (a ++ b) = stk s1 s2 a ++ stk (us s1 s2 a) (ls s1 s2 a) b.
Proof.
  induction a as [|i a IH]; intros b s1 s2; [reflexivity|]. cbn [app stack]. cbv zeta. rewrite IH. cbn [app]. f_equal. f_equal. f_equal.
  - unfold up_state. cbn [stack map]. cbv zeta. unfold run at 2. fold run. cbn [step fst snd]. destruct (run p1 _ _). reflexivity.
  - unfold lo_state. cbn [stack map]. cbv zeta. unfold run at 2. fold run. cbn [step fst snd]. destruct (run p2 _ _). reflexivity.
Qed.
Lemma upper_app : forall a b s1 s2, up s1 s2 (a ++ b) = up s1 s2 a ++ up (us s1 s2 a) (ls s1 s2 a) b.
Proof. intros. unfold upper. rewrite stack_app, map_app, trace_app. reflexivity. Qed.
Lemma lower_app : forall a b s1 s2, lo s1 s2 (a ++ b) = lo s1 s2 a ++ lo (us s1 s2 a) (ls s1 s2 a) b.
Proof. intros. unfold lower. rewrite stack_app, map_app, trace_app. reflexivity. Qed.
Lemma us_app : forall a b s1 s2, us s1 s2 (a ++ b) = us (us s1 s2 a) (ls s1 s2 a) b.
Proof. intros. unfold up_state at 1. rewrite stack_app, map_app, run_app. reflexivity. Qed.
Lemma ls_app : forall a b s1 s2, ls s1 s2 (a ++ b) = ls (us s1 s2 a) (ls s1 s2 a) b.
Proof. intros. unfold lo_state at 1. rewrite stack_app, map_app, run_app. reflexivity. Qed.
Lemma upper_one : forall s1 s2 i, up s1 s2 [i] = [(fst (wire p1 p2 s1 s2 i), output p1 s1 (fst (wire p1 p2 s1 s2 i)))].
Proof. reflexivity. Qed.
Lemma lower_one : forall s1 s2 i, lo s1 s2 [i] = [(snd (wire p1 p2 s1 s2 i), output p2 s2 (snd (wire p1 p2 s1 s2 i)))].
Proof. reflexivity. Qed.
Lemma ul_length : forall s1 s2 is, length (up s1 s2 is) = length (lo s1 s2 is).
Proof. intros. unfold upper, lower. rewrite !trace_length, !map_length. auto. Qed.

Lemma served_app : forall u1 l1 u2 l2 t0, length u1 = length l1 ->
  served t0 (u1 ++ u2) (l1 ++ l2) = (served t0 u1 l1 + served (t0 ++ l1) u2 l2)%nat.
Proof.
  induction u1 as [|u u1 IH]; intros [|l l1] u2 l2 t0 L; try discriminate L; cbn [app served].
  - rewrite app_nil_r. auto.
  - rewrite IH by (cbn in L; lia). rewrite <- app_assoc. cbn [app]. lia.
Qed.
Lemma served_le : forall u l t0, (served t0 u l <= productive_cycles t0 l)%nat.
Proof. induction u as [|x u IH]; intros [|y l] t0; cbn [served productive_cycles]; try lia. specialize (IH l (t0 ++ [y])). destruct (productive t0 (fst y)), (i_resp_rdy (fst x)); cbn [andb]; lia. Qed.
Lemma prod_app : forall t1 t2 t0, productive_cycles t0 (t1 ++ t2) = (productive_cycles t0 t1 + productive_cycles (t0 ++ t1) t2)%nat.
Proof.
  induction t1 as [|x t1 IH]; intros t2 t0; cbn [app productive_cycles].
  - rewrite app_nil_r. auto.
  - rewrite IH, <- app_assoc. cbn [app]. lia.
Qed.

Lemma stack_pre : forall a b s1 s2 m0 m rq rs, stack_run p1 p2 s1 s2 (a ++ b) m0 m rq rs -> no_write (up s1 s2 (a ++ b)) ->
  exists m' rq' rs', stack_run p1 p2 s1 s2 a m0 m' rq' rs' /\ no_write (up s1 s2 a).
Proof.
  intros a b s1 s2 m0 m rq rs (R1 & R2 & C & M) NW. rewrite upper_app in C, NW. rewrite lower_app in M.
  apply mem_trace_app in M. destruct M as (m' & rq' & rs' & M & _). apply Forall_app in C. destruct C as [C _].
  unfold no_write in NW. rewrite accepted_app in NW. apply Forall_app in NW. destruct NW as [NW _].
  exists m', rq', rs'. split; [exact (conj R1 (conj R2 (conj C M)))|exact NW].
Qed.

Lemma nonwrites_all : forall l, Forall (fun q => mq_type q <> T_WRITE) l -> nonwrites l = l.
Proof. induction 1 as [|q l H F IH]; auto. unfold nonwrites in *. cbn [filter]. rewrite IH. destruct (N.eqb_spec (mq_type q) T_WRITE); [contradiction|]. auto. Qed.
Lemma Forall_skipn : forall A (P : A -> Prop) n l, Forall P l -> Forall P (skipn n l).
Proof. intros A P n. induction n; intros l F; auto. destruct F; cbn [skipn]; auto. Qed.

(** In a cycle that is not productive for the first level, nothing goes down. *)
Lemma quiet_cycle : forall is i s1 s2 m0 m rq rs, stack_run p1 p2 s1 s2 (is ++ [i]) m0 m rq rs -> no_write (up s1 s2 (is ++ [i])) ->
  productive_cycles (up s1 s2 is) (up (us s1 s2 is) (ls s1 s2 is) [i]) = 0%nat ->
  accepted (lo (us s1 s2 is) (ls s1 s2 is) [i]) = [].
Proof.
  intros is i s1 s2 m0 m rq rs R NW PR. pose proof (stack_wires p1 p2 [i] (us s1 s2 is) (ls s1 s2 is)) as [WA _]. rewrite WA.
  destruct (stack_sys p1 p2 W1 W2 FT _ _ _ _ _ _ _ R NW) as [_ S1]. apply sys_proto in S1.
  destruct (proto_outst p1 W1 _ _ S1) as [_ O1].
  pose proof (proto_no_write p1 W1 _ _ S1 NW) as NM.
  change (trace_of p1 s1 (map fst (stk s1 s2 (is ++ [i])))) with (up s1 s2 (is ++ [i])) in *.
  assert (NO : nonwrites (outstanding (up s1 s2 (is ++ [i]))) = outstanding (up s1 s2 (is ++ [i]))) by (apply nonwrites_all; unfold outstanding; apply Forall_skipn; auto).
  rewrite NO in O1. clear NO NM WA.
  rewrite upper_app in O1. rewrite upper_one in *. set (w := wire _ _ _ _ i) in *. set (o := output p1 (us s1 s2 is) (fst w)) in *.
  unfold memreqs. cbn [flat_map snd]. destruct (o_mreq o) as [q|] eqn:Q; [exfalso|reflexivity].
  assert (RD : i_resp_rdy (fst w) = true /\ i_mreq_rdy (fst w) = true).
  { apply (sends_ready p1 (us s1 s2 is) [] (fst w)). cbv zeta. right. intros E. change (o_mreq o = None) in E. congruence. }
  cbn [productive_cycles fst] in PR. unfold productive in PR. destruct RD as [R1 R2]. rewrite R1, R2 in PR. cbn [andb] in PR.
  destruct (outstanding (up s1 s2 is)) as [|x l] eqn:OE; [discriminate PR|]. destruct (i_mresp_en (fst w)) eqn:ME; [discriminate PR|].
  assert (LE : (length (memresps (up s1 s2 is)) <= length (memreqs (up s1 s2 is)))%nat).
  { destruct (Nat.le_gt_cases (length (memresps (up s1 s2 is))) (length (memreqs (up s1 s2 is)))); auto.
    unfold outstanding in OE. rewrite skipn_all2 in OE by lia. discriminate OE. }
  rewrite outstanding_next in O1; auto; [|intros; congruence]. rewrite OE in O1. unfold RefineProofs.outst_next in O1. rewrite ME, Q in O1.
  rewrite app_length in O1. cbn in O1. lia.
Qed.

Lemma quiet_cycles : forall v u s1 s2 m0 m rq rs, stack_run p1 p2 s1 s2 (u ++ v) m0 m rq rs -> no_write (up s1 s2 (u ++ v)) ->
  productive_cycles (up s1 s2 u) (up (us s1 s2 u) (ls s1 s2 u) v) = 0%nat ->
  accepted (lo (us s1 s2 u) (ls s1 s2 u) v) = [].
Proof.
  induction v as [|i v IH] using rev_ind; intros u s1 s2 m0 m rq rs R NW PR; [reflexivity|].
  rewrite app_assoc in R, NW. destruct (stack_pre _ _ _ _ _ _ _ _ R NW) as (m' & rq' & rs' & R' & NW').
  rewrite upper_app, prod_app in PR. rewrite lower_app, accepted_app.
  rewrite (IH u s1 s2 m0 m' rq' rs' R' NW') by lia. cbn [app].
  rewrite <- us_app, <- ls_app. eapply quiet_cycle; eauto. rewrite us_app, ls_app, upper_app. lia.
Qed.

Lemma stack_step : forall u v i s1 s2 m0 m rq rs, stack_run p1 p2 s1 s2 ((u ++ v) ++ [i]) m0 m rq rs -> no_write (up s1 s2 ((u ++ v) ++ [i])) ->
  productive_cycles (up s1 s2 u) (up (us s1 s2 u) (ls s1 s2 u) v) = 0%nat ->
  (B2 p2 <= served (lo s1 s2 u) (up (us s1 s2 u) (ls s1 s2 u) v) (lo (us s1 s2 u) (ls s1 s2 u) v))%nat ->
  i_resp_rdy i && i_mreq_rdy i = true -> productive (up s1 s2 (u ++ v)) (fst (wire p1 p2 (us s1 s2 (u ++ v)) (ls s1 s2 (u ++ v)) i)) = true.
Proof.
  intros u v i s1 s2 m0 m rq rs R NW PR SV RD. destruct (stack_pre _ _ _ _ _ _ _ _ R NW) as (m' & rq' & rs' & R' & NW').
  pose proof (quiet_cycles _ _ _ _ _ _ _ _ R' NW' PR) as NA.
  destruct (stack_sys p1 p2 W1 W2 FT _ _ _ _ _ _ _ R' NW') as [S2 S1].
  pose proof (sys_proto p2 _ _ _ _ _ _ S2) as P2. rewrite stack_app, map_app in P2.
  pose proof (served_le (up (us s1 s2 u) (ls s1 s2 u) v) (lo (us s1 s2 u) (ls s1 s2 u) v) (lo s1 s2 u)) as SL.
  assert (PC : (B2 p2 <= productive_cycles (lo s1 s2 u) (lo (us s1 s2 u) (ls s1 s2 u) v))%nat) by lia.
  set (ix := mkInp false creq0 true (i_mreq_rdy i) (i_mresp_en i) (i_mresp i)).
  apply andb_prop in RD. destruct RD as [RD1 RD2].
  assert (RX : o_req_rdy (output p2 (ls s1 s2 (u ++ v)) ix) = true).
  { pose proof (proto_ready p2 W2 _ _ ix s2 P2 NA PC) as H. rewrite <- map_app, <- stack_app in H. apply H. unfold ix. cbn. auto. }
  pose proof (proto_progress p2 W2 _ _ s2 P2 PC) as PG. cbv zeta in PG.
  rewrite <- map_app, <- stack_app in PG.
  change (trace_of p2 s2 (map snd (stk s1 s2 (u ++ v)))) with (lo s1 s2 (u ++ v)) in PG.
  change (trace_of p2 s2 (map snd (stk s1 s2 u))) with (lo s1 s2 u) in PG.
  assert (AE : accepted (lo s1 s2 (u ++ v)) = accepted (lo s1 s2 u)) by (rewrite lower_app, accepted_app, NA, app_nil_r; auto).
  pose proof (stack_wires p1 p2 (u ++ v) s1 s2) as [WA WR].
  assert (OE : outstanding (up s1 s2 (u ++ v)) = []).
  { unfold outstanding. apply skipn_all2. rewrite WR, map_length. apply (f_equal (@length _)) in WA. rewrite map_length in WA. rewrite <- WA, AE. exact PG. }
  unfold productive. rewrite OE. unfold wire. cbn [fst i_resp_rdy i_mreq_rdy]. fold ix. rewrite RX, RD1. reflexivity.
Qed.

Definition pc s1 s2 x y : nat := productive_cycles (up s1 s2 x) (up (us s1 s2 x) (ls s1 s2 x) y).
Definition sv s1 s2 x y : nat := served (lo s1 s2 x) (up (us s1 s2 x) (ls s1 s2 x) y) (lo (us s1 s2 x) (ls s1 s2 x) y).
Lemma pc_app : forall s1 s2 x y z, pc s1 s2 x (y ++ z) = (pc s1 s2 x y + pc s1 s2 (x ++ y) z)%nat.
Proof. intros. unfold pc. rewrite (upper_app y z), prod_app, us_app, ls_app, (upper_app x y). reflexivity. Qed.
Lemma sv_app : forall s1 s2 x y z, sv s1 s2 x (y ++ z) = (sv s1 s2 x y + sv s1 s2 (x ++ y) z)%nat.
Proof. intros. unfold sv. rewrite (upper_app y z), (lower_app y z), served_app by apply ul_length. rewrite us_app, ls_app, (lower_app x y). reflexivity. Qed.
Lemma pc_one : forall s1 s2 x i, pc s1 s2 x [i] = if productive (up s1 s2 x) (fst (wire p1 p2 (us s1 s2 x) (ls s1 s2 x) i)) then 1%nat else 0%nat.
Proof. intros. unfold pc. rewrite upper_one. cbn [productive_cycles fst]. destruct (productive _ _); reflexivity. Qed.
Lemma sv_one : forall s1 s2 x i, sv s1 s2 x [i] = if i_resp_rdy i && productive (lo s1 s2 x) i then 1%nat else 0%nat.
Proof.
  intros. unfold sv. rewrite upper_one, lower_one. cbn [served fst].
  change (i_resp_rdy (fst (wire p1 p2 (us s1 s2 x) (ls s1 s2 x) i))) with (i_resp_rdy i).
  unfold productive. cbn [wire snd i_resp_rdy i_mreq_rdy i_mresp_en]. destruct (i_resp_rdy i); [|reflexivity]. cbn [andb]. destruct (_ && _); reflexivity.
Qed.

Lemma stack_productive : forall v u s1 s2 m0 m rq rs, stack_run p1 p2 s1 s2 (u ++ v) m0 m rq rs -> no_write (up s1 s2 (u ++ v)) ->
  (served (lo s1 s2 u) (up (us s1 s2 u) (ls s1 s2 u) v) (lo (us s1 s2 u) (ls s1 s2 u) v) <
   (productive_cycles (up s1 s2 u) (up (us s1 s2 u) (ls s1 s2 u) v) + 1) * (B2 p2 + 1))%nat.
Proof.
  intros v u s1 s2 m0 m rq rs R NW. change (sv s1 s2 u v < (pc s1 s2 u v + 1) * (B2 p2 + 1))%nat.
  assert (INV : exists a b, v = a ++ b /\ pc s1 s2 (u ++ a) b = 0%nat /\ (sv s1 s2 (u ++ a) b <= B2 p2)%nat /\
    (sv s1 s2 u a <= pc s1 s2 u a * (B2 p2 + 1))%nat).
  { revert m rq rs R NW. induction v as [|i v IH] using rev_ind; intros m rq rs R NW.
    - exists [], []. split; auto. split; [reflexivity|]. split; cbn; lia.
    - rewrite app_assoc in R, NW. destruct (stack_pre _ _ _ _ _ _ _ _ R NW) as (m' & rq' & rs' & R' & NW').
      destruct (IH _ _ _ R' NW') as (a & b & -> & P0 & SB & SA). clear IH.
      pose proof (pc_one s1 s2 (u ++ a ++ b) i) as P1. pose proof (sv_one s1 s2 (u ++ a ++ b) i) as S1.
      set (w := wire p1 p2 (us s1 s2 (u ++ a ++ b)) (ls s1 s2 (u ++ a ++ b)) i) in *.
      destruct (productive (up s1 s2 (u ++ a ++ b)) (fst w)) eqn:PW.
      + exists ((a ++ b) ++ [i]), []. rewrite app_nil_r. split; auto. split; [reflexivity|]. split; [cbn; lia|].
        rewrite !pc_app, !sv_app, P1, S1, P0. destruct (_ && _); lia.
      + exists a, (b ++ [i]). split; [rewrite <- app_assoc; auto|]. rewrite pc_app, sv_app, <- !app_assoc, P1, S1, P0.
        split; [lia|]. split; [|exact SA].
        destruct (i_resp_rdy i && _) eqn:G; [|lia].
        destruct (Nat.lt_ge_cases (sv s1 s2 (u ++ a) b) (B2 p2)) as [LT|GE]; [lia|exfalso].
        apply andb_prop in G. destruct G as [G1 G2]. unfold productive in G2. apply andb_prop in G2. destruct G2 as [G2 _].
        rewrite app_assoc in R, NW.
        pose proof (stack_step (u ++ a) b i s1 s2 m0 m rq rs R NW P0 GE G2) as ST. rewrite <- !app_assoc in ST. fold w in ST. congruence. }
  destruct INV as (a & b & -> & P0 & SB & SA). rewrite pc_app, sv_app. lia.
Qed.

Theorem stack_progress : forall is is2 s1 s2 m0 m rq rs, stack_run p1 p2 s1 s2 (is ++ is2) m0 m rq rs -> no_write (up s1 s2 (is ++ is2)) ->
  (B2 p1 * (B2 p2 + 1) <= served (lo s1 s2 is) (up (us s1 s2 is) (ls s1 s2 is) is2) (lo (us s1 s2 is) (ls s1 s2 is) is2))%nat ->
  (length (accepted (up s1 s2 is)) <= length (responses (up s1 s2 (is ++ is2))))%nat.
Proof.
  intros is is2 s1 s2 m0 m rq rs R NW SV. pose proof (stack_productive _ _ _ _ _ _ _ _ R NW) as ST.
  destruct (stack_sys p1 p2 W1 W2 FT _ _ _ _ _ _ _ R NW) as [_ S1]. apply sys_proto in S1. 
  rewrite stack_app, map_app in S1.
  assert (PC : (B2 p1 <= productive_cycles (up s1 s2 is) (up (us s1 s2 is) (ls s1 s2 is) is2))%nat) by nia.
  pose proof (proto_progress p1 W1 _ _ s1 S1 PC) as PG. cbv zeta in PG. rewrite <- map_app, <- stack_app in PG. exact PG.
Qed.
End H.
