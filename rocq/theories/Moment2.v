(** C72 for one cache: as one cache of a system of one. *)
From Coq Require Import Arith NArith List Bool Lia.
From Verif Require Import Bits Params Msg Rtl Mem Spec System SysFacts Traffic Crash CrashMultiSpec MultiSys MultiFacts MomentSpec Moment.
Import ListNotations.
Open Scope N_scope.

Section S.
Variable p : params.
Hypothesis W : wf_params p.

Definition lift (tr : trace) : list cyc := map (fun io => fun _ : nat => io) tr.
Lemma proj_lift : forall tr, proj 0 (lift tr) = tr.
Proof. intros tr. unfold proj, lift. rewrite map_map. apply map_id. Qed.
Lemma lift_app : forall a b, lift (a ++ b) = lift a ++ lift b.
Proof. intros. apply map_app. Qed.

Lemma mem_mmem : forall m rq rs tr m' rq' rs', mem_trace p m rq rs tr m' rq' rs' -> forall rqf rsf, rqf 0%nat = rq -> rsf 0%nat = rs ->
  exists rqf' rsf', rqf' 0%nat = rq' /\ rsf' 0%nat = rs' /\ mmem p 1 m rqf rsf (lift tr) m' rqf' rsf'.
Proof.
  intros m rq rs tr m' rq' rs' H. induction H as [m rq rs | m q rq rs tr m' rq' rs' H IH | m rq rs i o tr m' rq' rs' E H IH | m rq x rs i o tr m' rq' rs' E X H IH]; intros rqf rsf E1 E2.
  - exists rqf, rsf. split; auto. split; auto. constructor.
  - destruct (IH (setq rqf 0%nat rq) (setq rsf 0%nat (rsf 0%nat ++ [snd (mem_exec p m q)]))) as (a & b & F1 & F2 & F3).
    + reflexivity.
    + unfold setq. cbn [Nat.eqb]. rewrite E2. auto.
    + exists a, b. split; auto. split; auto. change (lift tr) with ([] ++ lift tr). eapply mmem_trans; [|exact F3].
      eapply mm_exec; [constructor | lia | exact E1].
  - destruct (IH (fun j => rqf j ++ opt_list (o_mreq o)) (fun j => if i_mresp_en i then List.tl (rsf j) else rsf j)) as (a & b & F1 & F2 & F3).
    + rewrite E1. auto.
    + rewrite E. auto.
    + exists a, b. split; auto. split; auto. change (lift ((i, o) :: tr)) with ([fun _ : nat => (i, o)] ++ lift tr).
      eapply mmem_trans; [|exact F3]. apply (mm_cycle p 1 m rqf rsf [] m rqf rsf (fun _ => (i, o))); [constructor|].
      cbn [fst]. intros j _ X. congruence.
  - destruct (IH (fun j => rqf j ++ opt_list (o_mreq o)) (fun j => if i_mresp_en i then List.tl (rsf j) else rsf j)) as (a & b & F1 & F2 & F3).
    + rewrite E1. auto.
    + rewrite E, E2. auto.
    + exists a, b. split; auto. split; auto. change (lift ((i, o) :: tr)) with ([fun _ : nat => (i, o)] ++ lift tr).
      eapply mmem_trans; [|exact F3]. apply (mm_cycle p 1 m rqf rsf [] m rqf rsf (fun _ => (i, o))); [constructor|].
      cbn [fst]. intros j J _. assert (j = 0%nat) by lia. subst j. rewrite E2, X. eauto.
Qed.

Fixpoint lifts (s : st) (L : list (list inp * mem)) : list (list cyc * mem) :=
  match L with [] => [] | (is, m) :: L => (lift (trace_of p s is), m) :: lifts (fst (run p s is)) L end.
Lemma lifts_whole : forall L s, whole (lifts s L) = lift (trace_of p s (whole L)).
Proof.
  induction L as [|[is m] L IH]; intros s; unfold whole in *; cbn [lifts map concat fst]; [reflexivity|].
  rewrite IH, trace_app, lift_app. auto.
Qed.
Lemma lifts_firstn : forall L s k, firstn k (lifts s L) = lifts s (firstn k L).
Proof. induction L as [|[is m] L IH]; intros s [|k]; cbn [lifts firstn]; auto. rewrite IH. auto. Qed.
Lemma lifts_length : forall L s, length (lifts s L) = length L.
Proof. induction L as [|[is m] L IH]; intros s; cbn [lifts length]; auto. Qed.
Lemma lifts_nth : forall L s j is m, nth_error L j = Some (is, m) -> exists ts, nth_error (lifts s L) j = Some (ts, m).
Proof.
  induction L as [|[is0 m0] L IH]; intros s [|j] is m N; cbn [lifts nth_error] in *; try discriminate N.
  - inversion N; subst. eauto.
  - eapply IH; eauto.
Qed.
Lemma stages_lift : forall s m rq rs L, stages p s m rq rs L -> forall rqf rsf, rqf 0%nat = rq -> rsf 0%nat = rs -> mstages p 1 m rqf rsf (lifts s L).
Proof.
  intros s m rq rs L H. induction H as [s m rq rs | s m rq rs is m' rq' rs' L M H IH]; intros rqf rsf E1 E2; cbn [lifts]; [constructor|].
  destruct (mem_mmem _ _ _ _ _ _ _ M rqf rsf E1 E2) as (a & b & F1 & F2 & F3). econstructor; eauto.
Qed.

Definition own_size : nat -> N * N := fun _ => (p_num_bytes p, p_assoc p).
Lemma sized_own : forall i, sized p own_size i = p.
Proof. intros i. unfold sized, own_size. destruct p. reflexivity. Qed.

Theorem stages_rise1 : forall s0 L m0 l, reset_state p s0 -> client_ok p (trace_of p s0 (whole L)) -> stages p s0 m0 [] [] L ->
  exists K, rising (length L) K /\ forall j is m, nth_error L j = Some (is, m) ->
    let tr := trace_of p s0 (upto L j) in
    (K j <= length (accepted tr))%nat /\ same_line p l m (flat_mem p m0 (firstn (K j) (accepted tr))) /\
    past_durable p l (accepted tr) (length (responses tr)) (K j).
Proof.
  intros s0 L m0 l R C S.
  assert (OC : own_clients p own_size 1 (fun _ => Some 0%nat) (fun _ => s0) (whole (lifts s0 L))).
  { intros i I. assert (i = 0%nat) by lia. subst i. rewrite sized_own, lifts_whole, proj_lift.
    split; auto. split; [|split; auto].
    - f_equal. unfold trace_of. generalize (whole L). intros is. clear. revert s0. induction is as [|i is IH]; intros s; [reflexivity|].
      cbn [run step]. specialize (IH (next p s i)). destruct (run p (next p s i) is) as [s2 os]. cbn [snd combine map fst] in *. rewrite <- IH. auto.
    - apply Forall_forall. intros r _. split; intros k K; auto. }
  assert (WC : wf_caches p own_size 1) by (intros i _; rewrite sized_own; auto).
  pose proof (stages_lift _ _ _ _ _ S no_reqs no_resps eq_refl eq_refl) as MS.
  destruct (stages_rise p own_size 1 (fun _ => Some 0%nat) (fun _ => s0) _ m0 0%nat l WC OC MS ltac:(lia)) as (K & RI & IM).
  exists K. rewrite lifts_length in RI. split; auto. intros j is m N. destruct (lifts_nth L s0 j is m N) as (ts & N').
  specialize (IM j ts m N'). unfold upto in IM. rewrite lifts_firstn, lifts_whole, proj_lift in IM. fold (upto L j) in IM.
  cbv zeta in *. destruct IM as (I1 & I2 & I3). split; auto. split; auto. intros a A AL. apply I2; auto.
Qed.
End S.
