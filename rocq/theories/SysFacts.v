(** Facts about every cycle of every run, in terms of the ports. *)
From Coq Require Import Arith NArith List Bool Lia.
From Verif Require Import Bits Params Msg Units Rtl Mem Spec System Tl ParamsProofs RtlLemmas RefineInv RefineStall RefineProofs
  ViewDefs ViewProofs SysProofs.
Import ListNotations.
Open Scope N_scope.

Lemma run_app : forall p is1 is2 s,
  run p s (is1 ++ is2) =
  (fst (run p (fst (run p s is1)) is2), snd (run p s is1) ++ snd (run p (fst (run p s is1)) is2)).
Proof.
  induction is1 as [|i is1 IH]; intros is2 s.
  - cbn [app run fst snd]. destruct (run p s is2); auto.
  - cbn [app run step fst snd]. rewrite IH. destruct (run p (next p s i) is1). auto.
Qed.
Lemma trace_app : forall p is1 is2 s,
  trace_of p s (is1 ++ is2) = trace_of p s is1 ++ trace_of p (fst (run p s is1)) is2.
Proof.
  induction is1 as [|i is1 IH]; intros is2 s; auto.
  cbn [app]. rewrite !trace_cons, IH. cbn [run step app]. destruct (run p (next p s i) is1). auto.
Qed.
Lemma trace_one : forall p s i, trace_of p s [i] = [(i, output p s i)].
Proof. auto. Qed.
Lemma trace_snoc : forall p is i s,
  trace_of p s (is ++ [i]) = trace_of p s is ++ [(i, output p (fst (run p s is)) i)].
Proof. intros. rewrite trace_app, trace_one. auto. Qed.
Lemma run_snoc : forall p is i s, fst (run p s (is ++ [i])) = next p (fst (run p s is)) i.
Proof. intros. rewrite run_app. auto. Qed.
Lemma trace_length : forall p is s, length (trace_of p s is) = length is.
Proof. induction is; intros; auto. rewrite trace_cons. cbn. auto. Qed.

Lemma accepted_app : forall t t', accepted (t ++ t') = accepted t ++ accepted t'.
Proof. intros. unfold accepted. apply flat_map_app. Qed.
Lemma responses_app : forall t t', responses (t ++ t') = responses t ++ responses t'.
Proof. intros. unfold responses. apply flat_map_app. Qed.
Lemma memreqs_app : forall t t', memreqs (t ++ t') = memreqs t ++ memreqs t'.
Proof. intros. unfold memreqs. apply flat_map_app. Qed.
Lemma memresps_app : forall t t', memresps (t ++ t') = memresps t ++ memresps t'.
Proof. intros. unfold memresps. apply flat_map_app. Qed.

Lemma mem_trace_app : forall p t t' m rq rs m' rq' rs', mem_trace p m rq rs (t ++ t') m' rq' rs' ->
  exists m1 rq1 rs1, mem_trace p m rq rs t m1 rq1 rs1 /\ mem_trace p m1 rq1 rs1 t' m' rq' rs'.
Proof.
  intros p t t' m rq rs m' rq' rs' H. remember (t ++ t') as T eqn:ET. revert t t' ET.
  induction H as [m rq rs | m q rq rs tr m' rq' rs' MT IH | m rq rs i o tr m' rq' rs' NE MT IH
                  | m rq x rs i o tr m' rq' rs' NE EX MT IH]; intros t t' ET.
  - symmetry in ET. apply app_eq_nil in ET. destruct ET; subst. do 3 eexists; split; constructor.
  - destruct (IH t t' ET) as (m1 & rq1 & rs1 & A & B). exists m1, rq1, rs1. split; auto. constructor; auto.
  - destruct t as [|x t]; cbn [app] in ET.
    + subst. exists m, rq, rs. split; [constructor|]. apply mt_quiet; auto.
    + inversion ET; subst. destruct (IH t t' eq_refl) as (m1 & rq1 & rs1 & A & B).
      exists m1, rq1, rs1. split; auto. apply mt_quiet; auto.
  - destruct t as [|y t]; cbn [app] in ET.
    + subst. exists m, rq, (i_mresp i :: rs). split; [constructor|]. eapply mt_answer; eauto.
    + inversion ET; subst. destruct (IH t t' eq_refl) as (m1 & rq1 & rs1 & A & B).
      exists m1, rq1, rs1. split; auto. eapply mt_answer; eauto.
Qed.

(** Memory's side of the accounting. *)
Lemma mem_trace_run : forall p m rq rs tr m' rq' rs', mem_trace p m rq rs tr m' rq' rs' ->
  exists ex, rq ++ memreqs tr = ex ++ rq' /\ m' = fst (mem_run p m ex) /\
             rs ++ snd (mem_run p m ex) = memresps tr ++ rs'.
Proof.
  induction 1 as [m rq rs | m q rq rs tr m' rq' rs' MT IH | m rq rs i o tr m' rq' rs' NE MT IH
                  | m rq x rs i o tr m' rq' rs' NE EX MT IH].
  - exists []. cbn. rewrite !app_nil_r. auto.
  - destruct IH as (ex & A & B & C). exists (q :: ex). cbn [app mem_run].
    destruct (mem_exec p m q) as [m1 x] eqn:EX. cbn [fst snd] in *.
    destruct (mem_run p m1 ex) as [m2 xs]. cbn [fst snd] in *. rewrite <- A.
    split; auto. split; auto. rewrite <- C, <- app_assoc. auto.
  - destruct IH as (ex & A & B & C). exists ex. unfold memreqs, memresps in *. cbn [flat_map fst snd].
    rewrite NE. cbn [app]. rewrite app_assoc. auto.
  - destruct IH as (ex & A & B & C). exists ex. unfold memreqs, memresps in *. cbn [flat_map fst snd].
    rewrite NE, EX. cbn [app]. rewrite app_assoc. split; auto. split; auto. rewrite C. auto.
Qed.

Lemma mem_trace_nil : forall p m m' rq' rs', mem_trace p m [] [] [] m' rq' rs' -> m' = m /\ rq' = [] /\ rs' = [].
Proof. intros. inversion H; auto. Qed.

Section F.
Variable p : params.
Hypothesis W : wf_params p.

Lemma sys_app : forall s0 is1 is2 m0 m rq rs, sys_run p s0 (is1 ++ is2) m0 m rq rs ->
  exists m1 rq1 rs1, sys_run p s0 is1 m0 m1 rq1 rs1 /\
    mem_trace p m1 rq1 rs1 (trace_of p (fst (run p s0 is1)) is2) m rq rs /\
    client_ok p (trace_of p (fst (run p s0 is1)) is2).
Proof.
  intros s0 is1 is2 m0 m rq rs (R & C & M). rewrite trace_app in C, M.
  apply Forall_app in C. destruct C as [C1 C2].
  destruct (mem_trace_app _ _ _ _ _ _ _ _ _ M) as (m1 & rq1 & rs1 & M1 & M2).
  exists m1, rq1, rs1. split; [split; auto|]. auto.
Qed.

(** Outstanding requests as seen by [legal_run]. *)
Fixpoint outs (s : st) (out : list mreq) (is : list inp) : list mreq :=
  match is with [] => out | i :: r => outs (next p s i) (outst_next out i (output p s i)) r end.
Lemma legal_snoc : forall is s out i, legal_run p s out (is ++ [i]) ->
  legal_run p s out is /\ legal p (fst (run p s is)) (outs s out is) i.
Proof.
  induction is as [|j is IH]; intros s out i H; cbn [app legal_run outs] in *.
  - split; [exact I | apply H].
  - destruct H as [H1 H2]. destruct (IH _ _ _ H2) as [A B]. split; auto.
    cbn [run step]. destruct (run p (next p s j) is) as [s2 os] eqn:EE. auto.
Qed.
Lemma outs_snoc : forall is s out i,
  outs s out (is ++ [i]) = outst_next (outs s out is) i (output p (fst (run p s is)) i).
Proof.
  induction is as [|j is IH]; intros s out i; cbn [app outs]; auto.
  rewrite IH. cbn [run step]. destruct (run p (next p s j) is); auto.
Qed.

(** The state of the system after any run: still initialising, or in a phase of
    the transaction machine. *)
Inductive stok (m0 : mem) (s : st) (n : nat) (m : mem) (rq : list mreq) (rs : list mresp) (tr : trace) : ast -> Prop :=
| st_init : forall c0 k, clean_start p c0 -> ph_init p s k -> N.of_nat n + k = total_lines p - 1 ->
    accepted tr = [] -> responses tr = [] -> memreqs tr = [] -> memresps tr = [] ->
    m = m0 -> rq = [] -> rs = [] -> stok m0 s n m rq rs tr (mkA c0 None [])
| st_phase : forall a, phase p s a -> total_lines p <= N.of_nat n ->
    J p m0 a m rq rs (accepted tr) (responses tr) (memreqs tr) -> outstanding tr = a_outst a ->
    stok m0 s n m rq rs tr a.

Lemma stok_J : forall m0 s n m rq rs tr a, stok m0 s n m rq rs tr a ->
  J p m0 a m rq rs (accepted tr) (responses tr) (memreqs tr) /\ outstanding tr = a_outst a.
Proof.
  intros m0 s n m rq rs tr a H. inversion H; subst; auto.
  unfold outstanding. rewrite H3, H4, H5, H6. split; auto.
  apply J_idle with (Q := []); [constructor; auto | constructor |]. intros j. cbn. lia.
Qed.

Lemma skipn_app_le : forall A (l l' : list A) n, (n <= length l)%nat -> skipn n (l ++ l') = skipn n l ++ l'.
Proof. intros. rewrite skipn_app. replace (n - length l)%nat with 0%nat by lia. auto. Qed.

Lemma skipn_S_tl : forall A n (l : list A), skipn (S n) l = tl (skipn n l).
Proof. induction n; destruct l; auto. cbn [skipn] in *. rewrite <- IHn. auto. Qed.

Lemma outstanding_next : forall tr i o, (length (memresps tr) <= length (memreqs tr))%nat ->
  (i_mresp_en i = true -> outstanding tr <> []) ->
  outstanding (tr ++ [(i, o)]) = outst_next (outstanding tr) i o.
Proof.
  intros tr i o L NE. unfold outstanding, outst_next in *. rewrite memresps_app, memreqs_app, app_length.
  assert (E1 : memresps [(i, o)] = if i_mresp_en i then [i_mresp i] else []) by (unfold memresps; cbn; destruct (i_mresp_en i); auto).
  assert (E2 : memreqs [(i, o)] = ol (o_mreq o)) by (unfold memreqs; cbn; rewrite app_nil_r; symmetry; apply ol_opt).
  rewrite E1, E2.
  destruct (i_mresp_en i).
  - cbn [length]. replace (length (memresps tr) + 1)%nat with (S (length (memresps tr))) by lia.
    rewrite skipn_app_le; [rewrite skipn_S_tl; auto|].
    destruct (Nat.eq_dec (length (memresps tr)) (length (memreqs tr))) as [E|E]; [|lia].
    exfalso. apply NE; auto. rewrite E. apply skipn_all.
  - cbn [length]. rewrite Nat.add_0_r. apply skipn_app_le; auto.
Qed.

Lemma sys_resps_le : forall s0 is m0 m rq rs, sys_run p s0 is m0 m rq rs ->
  (length (memresps (trace_of p s0 is)) <= length (memreqs (trace_of p s0 is)))%nat.
Proof.
  intros s0 is m0 m rq rs (_ & _ & M). destruct (mem_trace_run _ _ _ _ _ _ _ _ M) as (ex & A & B & C).
  cbn [app] in *. assert (LE : forall l m, length (snd (mem_run p m l)) = length l).
  { induction l as [|q l IH]; intros mm; auto. cbn [mem_run]. destruct (mem_exec p mm q) as [m1 x].
    specialize (IH m1). destruct (mem_run p m1 l). cbn in *. lia. }
  pose proof (LE ex m0) as L. rewrite C in L. rewrite A. rewrite !app_length in *. lia.
Qed.

Lemma sys_legal0 : forall s0 is m0 m rq rs, sys_run p s0 is m0 m rq rs -> legal_run p s0 [] is.
Proof. intros s0 is m0 m rq rs (_ & C & M). eapply sys_legal; eauto. exists []. split; auto. Qed.

Lemma sys_outs : forall is s0 m0 m rq rs, sys_run p s0 is m0 m rq rs ->
  outstanding (trace_of p s0 is) = outs s0 [] is.
Proof.
  induction is as [|i is IH] using rev_ind; intros s0 m0 m rq rs R; auto.
  destruct (sys_app _ _ _ _ _ _ _ R) as (m1 & rq1 & rs1 & R1 & _ & _).
  destruct (legal_snoc _ _ _ _ (sys_legal0 _ _ _ _ _ _ R)) as [_ LG].
  rewrite outs_snoc, trace_snoc, outstanding_next.
  - erewrite IH; eauto.
  - eapply sys_resps_le; eauto.
  - intros ME. destruct (lg_resp _ _ _ _ LG ME) as (q & l & E & _). erewrite IH; eauto. rewrite E. discriminate.
Qed.

(** One cycle. *)
Lemma stok_step : forall m0 s n m rq rs tr a i m' rq' rs', stok m0 s n m rq rs tr a ->
  legal p s (a_outst a) i -> client_ok p [(i, output p s i)] ->
  (length (memresps tr) <= length (memreqs tr))%nat ->
  mem_trace p m rq rs [(i, output p s i)] m' rq' rs' ->
  exists b a', stok m0 s n m rq rs tr b /\ acyc p b i (output p s i) a' /\
    stok m0 (next p s i) (S n) m' rq' rs' (tr ++ [(i, output p s i)]) a'.
Proof.
  intros m0 s n m rq rs tr a i m' rq' rs' ST LG CL LE MT.
  assert (NX : forall b a', J p m0 b m rq rs (accepted tr) (responses tr) (memreqs tr) ->
     outstanding tr = a_outst b -> legal p s (a_outst b) i -> acyc p b i (output p s i) a' ->
     J p m0 a' m' rq' rs' (accepted (tr ++ [(i, output p s i)])) (responses (tr ++ [(i, output p s i)]))
         (memreqs (tr ++ [(i, output p s i)])) /\ outstanding (tr ++ [(i, output p s i)]) = a_outst a').
  { intros b a' JJ OT LG' AC. split.
    - rewrite accepted_app, responses_app, memreqs_app.
      eapply J_run; eauto. econstructor; [eauto | constructor].
    - rewrite outstanding_next; auto.
      + rewrite OT. symmetry. eapply acyc_outst; eauto.
      + intros ME. destruct (lg_resp _ _ _ _ LG' ME) as (q & l & EQ & _). rewrite OT, EQ. discriminate. }
  destruct (stok_J _ _ _ _ _ _ _ _ ST) as [JJ OT].
  inversion ST as [c0 k CS PI NK A1 A2 A3 A4 EM EQ ES EA | a0 PH NK JA OA EA]; subst.
  - cbn [a_outst a_cur] in LG.
    destruct (init_step p W s k i PI LG) as (O & RE & ME & N').
    assert (QT : m' = m0 /\ rq' = [] /\ rs' = []).
    { rewrite O in MT. inversion MT; subst; try congruence.
      match goal with X : mem_trace p _ _ _ [] _ _ _ |- _ => cbn in X; apply mem_trace_nil in X end. auto. }
    destruct QT as (-> & -> & ->).
    assert (TQ : accepted (tr ++ [(i, output p s i)]) = [] /\ responses (tr ++ [(i, output p s i)]) = [] /\
       memreqs (tr ++ [(i, output p s i)]) = [] /\ memresps (tr ++ [(i, output p s i)]) = []).
    { rewrite accepted_app, responses_app, memreqs_app, memresps_app, A1, A2, A3, A4, O.
      unfold accepted, responses, memreqs, memresps. cbn. rewrite RE, ME. auto. }
    destruct TQ as (T1 & T2 & T3 & T4).
    destruct N' as [(K & N') | (K & c1 & C & N')].
    + exists (mkA c0 None []), (mkA c0 None []). split; auto. split; [rewrite O; apply acyc_idle; auto|].
      apply st_init with (k - 1); auto. lia.
    + exists (mkA c1 None []), (mkA c1 None []).
      assert (ST1 : stok m0 s n m0 [] [] tr (mkA c1 None [])) by (apply st_init with k; auto).
      split; auto. split; [rewrite O; apply acyc_idle; auto|].
      destruct (stok_J _ _ _ _ _ _ _ _ ST1) as [J1 O1].
      destruct (NX (mkA c1 None []) (mkA c1 None [])) as [J2 O2]; auto.
      { rewrite O; apply acyc_idle; auto. }
      apply st_phase; auto. pose proof (total_ge2 p W). lia.
  - destruct (step_sim p W s a i PH LG) as (a' & AC & PH').
    exists a, a'. split; auto. split; auto.
    destruct (NX a a') as [J2 O2]; auto. apply st_phase; auto. lia.
Qed.

Theorem sys_state : forall is s0 m0 m rq rs, sys_run p s0 is m0 m rq rs ->
  exists a, stok m0 (fst (run p s0 is)) (length is) m rq rs (trace_of p s0 is) a.
Proof.
  induction is as [|i is IH] using rev_ind; intros s0 m0 m rq rs R.
  - destruct R as (R & C & M). apply mem_trace_nil in M. destruct M as (-> & -> & ->).
    exists (mkA (mkC (fun _ _ => 0) (fun _ => 0) (fun _ => 0)) None []).
    apply st_init with (total_lines p - 1); auto.
    + split; cbn [ct cr]; auto. intros. split; [unfold te_val; apply N.bits_0 | apply te_dty_0].
    + apply reset_init; auto.
  - destruct (sys_app _ _ _ _ _ _ _ R) as (m1 & rq1 & rs1 & R1 & M2 & C2).
    destruct (IH _ _ _ _ _ R1) as (a & ST). destruct (stok_J _ _ _ _ _ _ _ _ ST) as [JJ OT].
    rewrite trace_one in M2, C2.
    destruct (legal_snoc _ _ _ _ (sys_legal0 _ _ _ _ _ _ R)) as [_ LG].
    rewrite <- (sys_outs _ _ _ _ _ _ R1), OT in LG.
    destruct (stok_step _ _ _ _ _ _ _ _ _ _ _ _ ST LG C2 (sys_resps_le _ _ _ _ _ _ R1) M2) as (b & a' & _ & _ & ST').
    exists a'. rewrite run_snoc, trace_snoc, app_length, Nat.add_comm. auto.
Qed.

Theorem sys_cycle : forall is i s0 m0 m' rq' rs', sys_run p s0 (is ++ [i]) m0 m' rq' rs' ->
  exists m rq rs a a', let s := fst (run p s0 is) in
    sys_run p s0 is m0 m rq rs /\ stok m0 s (length is) m rq rs (trace_of p s0 is) a /\
    legal p s (a_outst a) i /\ acyc p a i (output p s i) a' /\
    stok m0 (next p s i) (S (length is)) m' rq' rs' (trace_of p s0 (is ++ [i])) a' /\
    mem_trace p m rq rs [(i, output p s i)] m' rq' rs'.
Proof.
  intros is i s0 m0 m' rq' rs' R.
  destruct (sys_app _ _ _ _ _ _ _ R) as (m1 & rq1 & rs1 & R1 & M2 & C2).
  destruct (sys_state _ _ _ _ _ _ R1) as (a & ST). destruct (stok_J _ _ _ _ _ _ _ _ ST) as [JJ OT].
  rewrite trace_one in M2, C2.
  destruct (legal_snoc _ _ _ _ (sys_legal0 _ _ _ _ _ _ R)) as [_ LG].
  rewrite <- (sys_outs _ _ _ _ _ _ R1) in LG.
  assert (LG1 := LG). rewrite OT in LG1.
  destruct (stok_step _ _ _ _ _ _ _ _ _ _ _ _ ST LG1 C2 (sys_resps_le _ _ _ _ _ _ R1) M2) as (b & a' & STb & AC & ST').
  destruct (stok_J _ _ _ _ _ _ _ _ STb) as [JJb OTb]. rewrite OTb in LG.
  exists m1, rq1, rs1, b, a'. cbv zeta. rewrite trace_snoc. split; [exact R1|]. split; [exact STb|]. split; [exact LG|]. split; [exact AC|]. split; [exact ST' | exact M2].
Qed.
End F.
