(** The request port opens again, and programs are accepted to the end. *)
From Coq Require Import Arith NArith List Bool Lia.
From Verif Require Import Bits Params Msg Units Rtl Mem Tl ParamsProofs RtlLemmas RefineInv RefineProofs Spec System SysProofs SysFacts Facts1 Facts2 Progress
  Hide Obliv Proto LiveSpec.
Import ListNotations.
Open Scope N_scope.

Section P.
Variable p : params.
Hypothesis W : wf_params p.

Lemma sys_ready : forall is i s0 m0 m rq rs, sys_run p s0 is m0 m rq rs -> total_lines p <= N.of_nat (length is) ->
  (length (accepted (trace_of p s0 is)) <= length (responses (trace_of p s0 is)))%nat ->
  i_resp_rdy i && i_mreq_rdy i = true -> o_req_rdy (output p (fst (run p s0 is)) i) = true.
Proof.
  intros is i s0 m0 m rq rs R TL LE RD. destruct (sys_state p W _ _ _ _ _ _ R) as (a & ST). destruct (stok_J p _ _ _ _ _ _ _ _ ST) as [JJ _].
  inversion ST as [c0 k CS PI NK A1 A2 A3 A4 EM EQ ES EA | a0 PH NK JA OA EA]; subst; [pose proof (total_ge2 p W); lia|].
  assert (CN : a_cur a = None).
  { destruct (J_hist _ _ _ _ _ _ _ _ _ JJ) as (A0 & c & mb & Q & pd & HH & PD & _ & C).
    pose proof (hist_length p _ _ _ _ _ _ HH) as L. rewrite app_length in L. subst pd.
    destruct C as [(E & E2 & _) | (r & ex & qs & todo & out & l & E & _ & E2 & _)]; auto.
    exfalso. rewrite E, app_length in LE. cbn [length] in LE. lia. }
  pose proof (phase_idle p _ _ PH CN) as ID. cbn [output o_req_rdy]. eapply idle_ready; eauto.
  rewrite ostall2_eq. apply andb_prop in RD. destruct RD as [-> ->]. cbn [negb orb]. apply andb_false_r.
Qed.

Lemma productive_le : forall tr tr0, (productive_cycles tr0 tr <= length tr)%nat.
Proof. induction tr as [|x tr IH]; intros tr0; cbn [productive_cycles length]; [lia|]. specialize (IH (tr0 ++ [x])). destruct (productive tr0 (fst x)); lia. Qed.

Definition B2 : nat := (2 * N.to_nat (5 * total_lines p + 3))%nat.

Theorem proto_ready : forall is is2 i s0, proto_run p s0 (is ++ is2) ->
  accepted (trace_of p (fst (run p s0 is)) is2) = [] ->
  (B2 <= productive_cycles (trace_of p s0 is) (trace_of p (fst (run p s0 is)) is2))%nat ->
  i_resp_rdy i && i_mreq_rdy i = true -> o_req_rdy (output p (fst (run p s0 (is ++ is2))) i) = true.
Proof.
  intros is is2 i s0 P NA PC RD. pose proof (proto_progress p W is is2 s0 P PC) as PR. cbv zeta in PR.
  destruct (proto_lift p (is ++ is2) s0 (fun _ => 0) P) as (is' & m & S & HI & AC).
  assert (L : length is' = length (is ++ is2)) by (apply (f_equal (@length _)) in HI; rewrite !map_length in HI; auto).
  pose proof (hide_trace p _ _ s0 HI) as HT. destruct (oblivious p _ _ s0 s0 (ctl_refl s0) HI) as [_ CE].
  pose proof (obl_out p _ _ i i CE eq_refl) as HO.
  assert (Q : o_req_rdy (output p (fst (run p s0 is')) i) = o_req_rdy (output p (fst (run p s0 (is ++ is2))) i)) by exact (f_equal o_req_rdy HO).
  rewrite <- Q. eapply sys_ready; eauto.
  - pose proof (productive_le (trace_of p (fst (run p s0 is)) is2) (trace_of p s0 is)) as PL. rewrite trace_length in PL. rewrite L, app_length.
    unfold B2 in PC. lia.
  - rewrite AC, trace_app, accepted_app, NA, app_nil_r. destruct (hide_resps _ _ HT) as (_ & _ & _ & LAC).
    assert (LR : length (responses (trace_of p s0 is')) = length (responses (trace_of p s0 (is ++ is2)))).
    { pose proof (hide_resps _ _ HT) as (X & _). apply (f_equal (@length _)) in X. rewrite !map_length in X. auto. }
    rewrite LR. auto.
Qed.

Lemma offer_app : forall total t1 t2 t0, offer_cycles total t0 (t1 ++ t2) = (offer_cycles total t0 t1 + offer_cycles total (t0 ++ t1) t2)%nat.
Proof.
  intros total. induction t1 as [|x t1 IH]; intros t2 t0; cbn [app offer_cycles].
  - rewrite app_nil_r. auto.
  - rewrite IH, <- app_assoc. cbn [app]. lia.
Qed.
Lemma offer_le : forall total tr tr0, (offer_cycles total tr0 tr <= productive_cycles tr0 tr)%nat.
Proof. intros total. induction tr as [|x tr IH]; intros tr0; cbn [productive_cycles offer_cycles]; [lia|]. specialize (IH (tr0 ++ [x])). destruct (productive tr0 (fst x)); cbn [andb]; destruct (offers total tr0 x); lia. Qed.
Lemma acc_one : forall io, accepted [io] = if i_req_en (fst io) then [i_req (fst io)] else [].
Proof. intros [i o]. unfold accepted. cbn. destruct (i_req_en i); auto. Qed.

Theorem proto_accepts : forall total is s0, proto_run p s0 is ->
  (total * (B2 + 1) <= offer_cycles total [] (trace_of p s0 is))%nat -> (total <= length (accepted (trace_of p s0 is)))%nat.
Proof.
  intros total is s0 P LE.
  assert (INV : (total <= length (accepted (trace_of p s0 is)))%nat \/
    exists u v, is = u ++ v /\ accepted (trace_of p (fst (run p s0 u)) v) = [] /\
      (offer_cycles total (trace_of p s0 u) (trace_of p (fst (run p s0 u)) v) <= B2)%nat /\
      (offer_cycles total [] (trace_of p s0 u) <= length (accepted (trace_of p s0 u)) * (B2 + 1))%nat).
  { clear LE. revert P. induction is as [|i is IH] using rev_ind; intros P.
    - right. exists [], []. split; auto. split; auto. cbn. split; lia.
    - pose proof (proto_app p _ _ _ P) as PP. specialize (IH PP). rewrite trace_snoc, accepted_app, app_length. set (s := fst (run p s0 is)) in *.
      destruct IH as [IH | (u & v & E & NA & L1 & L2)]; [left; lia|].
      destruct (Nat.le_gt_cases total (length (accepted (trace_of p s0 is)))) as [D|ND]; [left; lia|].
      destruct P as (RR & CO & AT). rewrite trace_snoc in CO. apply Forall_app in CO. destruct CO as [_ CO]. inversion CO as [|? ? C1 _]; subst. fold s in C1.
      pose proof (trace_app p u v s0) as TA. 
      right. destruct (i_req_en i) eqn:EN.
      + exists ((u ++ v) ++ [i]), []. rewrite app_nil_r. split; auto. split; [reflexivity|]. split; [cbn; lia|].
        rewrite trace_snoc. fold s. rewrite accepted_app, offer_app, app_length, acc_one. cbn [fst]. rewrite EN. cbn [length].
        rewrite TA, offer_app, accepted_app, NA, app_nil_r. cbn [app offer_cycles]. destruct (_ && _); lia.
      + exists u, (v ++ [i]). split; [rewrite app_assoc; auto|]. rewrite trace_snoc.
        assert (ES : fst (run p (fst (run p s0 u)) v) = s) by (unfold s; rewrite run_app; auto). rewrite ES.
        split; [rewrite accepted_app, NA, acc_one; cbn [fst]; rewrite EN; auto|]. split; [|auto].
        rewrite offer_app. cbn [offer_cycles]. destruct (productive _ _ && offers _ _ _) eqn:G; [|lia].
        destruct (Nat.lt_ge_cases (offer_cycles total (trace_of p s0 u) (trace_of p (fst (run p s0 u)) v)) B2) as [LT|GE]; [lia|exfalso].
        apply andb_prop in G. destruct G as [G1 G2]. cbn [fst] in G1.
        assert (RD : i_resp_rdy i && i_mreq_rdy i = true) by (unfold productive in G1; apply andb_prop in G1; apply G1).
        pose proof (proto_ready u v i s0) as PR.
        assert (OR : o_req_rdy (output p s i) = true).
        { apply PR; auto. pose proof (offer_le total (trace_of p (fst (run p s0 u)) v) (trace_of p s0 u)). lia. }
        unfold offers in G2. cbn [fst snd] in G2. rewrite OR, EN, <- TA in G2. cbn [implb orb] in G2. apply Nat.leb_le in G2. lia. }
  destruct INV as [D | (u & v & -> & NA & L1 & L2)]; auto.
  rewrite trace_app in LE |- *. rewrite offer_app in LE. cbn [app] in LE. rewrite accepted_app, NA, app_nil_r. nia.
Qed.

Theorem proto_completes : forall total is is2 s0, proto_run p s0 (is ++ is2) ->
  (total * (B2 + 1) <= offer_cycles total [] (trace_of p s0 is))%nat ->
  (B2 <= productive_cycles (trace_of p s0 is) (trace_of p (fst (run p s0 is)) is2))%nat ->
  (total <= length (responses (trace_of p s0 (is ++ is2))))%nat.
Proof.
  intros total is is2 s0 P O C. pose proof (proto_accepts total is s0 (proto_app p _ _ _ P) O). pose proof (proto_progress p W is is2 s0 P C). cbv zeta in *. lia.
Qed.
End P.
