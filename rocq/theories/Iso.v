(** C65: two runs of one cache whose clients do the same and whose memory port keeps its own timing. *)
From Coq Require Import Arith NArith List Bool Lia.
From Verif Require Import Bits Params Msg Rtl Mem Spec System Traffic MultiSys Hide Obliv SysProofs SysFacts Proto IdleSpec Idle2 TimeSpec ExactSpec ScheduleSpec LatSpec Lat3 Lat4 IsoSpec.
Import ListNotations.
Open Scope N_scope.

Record alike (i i' : inp) : Prop := mkAlike {
  al_client : same_client i i';
  al_rdy : i_mreq_rdy i' = i_mreq_rdy i;
  al_en : i_mresp_en i' = i_mresp_en i;
  al_ty : i_mresp_en i = true -> mr_type (i_mresp i') = mr_type (i_mresp i)
}.

(** [i'] showing on idle ports what [i] shows. *)
Definition mix (i i' : inp) : inp :=
  mkInp (i_req_en i') (if i_req_en i' then i_req i' else i_req i) (i_resp_rdy i') (i_mreq_rdy i') (i_mresp_en i')
    (if i_mresp_en i' then i_mresp i' else i_mresp i).

Lemma mix_idle : forall i i', idle_eq i' (mix i i').
Proof.
  intros. constructor; cbn [mix i_req_en i_req i_resp_rdy i_mreq_rdy i_mresp_en i_mresp]; auto.
  - intros ->. auto.
  - intros ->. auto.
Qed.
Lemma mix_hide : forall i i', alike i i' -> hide_in (mix i i') = hide_in i.
Proof.
  intros i i' [[A B C] D E F]. unfold hide_in. cbn [mix i_req_en i_req i_resp_rdy i_mreq_rdy i_mresp_en i_mresp].
  rewrite A, C, D, E. f_equal.
  - destruct (i_req_en i); auto.
  - destruct (i_mresp_en i); auto. unfold hide_mresp. rewrite F; auto.
Qed.

Lemma hide_drop : forall o o', hide_out o' = hide_out o -> public o' = public o.
Proof.
  intros o o' H. unfold public, hide_out, drop_out in *. cbn [o_req_rdy o_resp o_mreq]. inversion H as [[A B C]]. rewrite A, B. f_equal.
  destruct (o_mreq o) as [q|], (o_mreq o') as [q'|]; cbn [option_map] in *; try discriminate; auto.
  inversion C as [[C1 C2 C3 C4 C5]]. unfold hide_mreq, drop_wopq. cbn [mq_type mq_opq mq_addr mq_len mq_mask]. rewrite C1, C2, C3, C4, C5. auto.
Qed.
Lemma drop_hide : forall o o', drop_out o' = drop_out o -> public o' = public o.
Proof. intros o o' H. unfold public. rewrite H. auto. Qed.
Lemma map_pub : forall (f : outp -> outp) O O', (forall o o', f o' = f o -> public o' = public o) -> map f O' = map f O -> map public O' = map public O.
Proof.
  intros f O O' H. revert O'. induction O as [|o O IH]; intros [|o' O'] E; try discriminate E; auto.
  cbn [map] in *. inversion E. f_equal; auto.
Qed.

Lemma combine_snd : forall (A B : Type) (l : list A) (l' : list B), length l = length l' -> map snd (combine l l') = l'.
Proof. induction l; destruct l'; intros; try discriminate; auto. cbn. f_equal. auto. Qed.

Section I.
Variable p : params.
Hypothesis W : wf_params p.

Lemma alike_out : forall s0 is is', proto_run p s0 is' -> Forall2 alike is is' ->
  map public (snd (run p s0 is')) = map public (snd (run p s0 is)).
Proof.
  intros s0 is is' P F.
  assert (X : exists js, Forall2 idle_eq is' js /\ map hide_in js = map hide_in is).
  { clear P. induction F as [|i i' is is' A F (js & J1 & J2)]; [exists []; auto|].
    exists (mix i i' :: js). split; [constructor; auto; apply mix_idle|]. cbn [map]. rewrite J2, mix_hide; auto. }
  destruct X as (js & J1 & J2).
  pose proof (idle_ports p W s0 _ _ P J1) as Y1. pose proof (proj1 (oblivious p is js s0 s0 (ctl_refl s0) J2)) as Y2.
  etransitivity; [symmetry; eapply map_pub; [|exact Y1]; apply drop_hide|]. eapply map_pub; [|exact Y2]; apply hide_drop.
Qed.


Lemma sends_pub : forall is is' s0, length is' = length is -> map public (snd (run p s0 is')) = map public (snd (run p s0 is)) ->
  sends (trace_of p s0 is') = sends (trace_of p s0 is) /\ map mq_type (memreqs (trace_of p s0 is')) = map mq_type (memreqs (trace_of p s0 is)).
Proof.
  intros is is' s0 LN E. unfold trace_of.
  assert (A : length (snd (run p s0 is)) = length is) by apply run_length.
  assert (B : length (snd (run p s0 is')) = length is') by apply run_length.
  revert LN E A B. generalize (snd (run p s0 is)) (snd (run p s0 is')). revert is'.
  induction is as [|i is IH]; intros [|i' is'] [|o O] [|o' O'] LN E A B; cbn [length] in *; try discriminate; auto.
  cbn [map] in E. inversion E as [[E0 E1 E2 E3]]. inversion LN. inversion A. inversion B.
  destruct (IH is' O O') as [I1 I2]; auto. cbn [combine]. unfold sends, memreqs in *. cbn [map flat_map fst snd]. rewrite I1, !map_app, I2. split; f_equal.
  - cbn [option_map drop_out o_mreq] in E2. destruct (o_mreq o), (o_mreq o'); try discriminate E2; auto.
  - cbn [option_map drop_out o_mreq] in E2. destruct (o_mreq o) as [q|], (o_mreq o') as [q'|]; try discriminate E2; auto. inversion E2. cbn. f_equal. auto.
Qed.

Lemma memresps_len : forall is is' (O O' : list outp), Forall2 alike is is' -> length O = length is -> length O' = length is' ->
  length (memresps (combine is' O')) = length (memresps (combine is O)).
Proof.
  intros is is' O O' F. revert O O'. induction F as [|i i' is is' A F IH]; intros [|o O] [|o' O'] L1 L2; try discriminate; auto.
  unfold memresps in *. cbn [combine flat_map fst]. rewrite !app_length. rewrite (al_en _ _ A). rewrite (IH O O') by (cbn in *; auto).
  destruct (i_mresp_en i); auto.
Qed.

Variables takes answers : list bool -> bool.

Theorem isolated : forall is is' s0, proto_run p s0 is -> proto_run p s0 is' -> Forall2 same_client is is' ->
  own_timing takes answers (trace_of p s0 is) -> own_timing takes answers (trace_of p s0 is') -> Forall2 alike is is'.
Proof.
  induction is as [|i is IH] using rev_ind; intros is0 s0 P P' F T T'.
  { inversion F. constructor. }
  apply Forall2_app_inv_l in F as (is' & l & F & F1 & ->). inversion F1 as [|x i' y z SC F2]; subst. inversion F2; subst. clear F1 F2.
  assert (OT : forall js j, own_timing takes answers (trace_of p s0 (js ++ [j])) -> own_timing takes answers (trace_of p s0 js)).
  { intros js j H t1 io t2 E. rewrite trace_app in H. apply (H t1 io (t2 ++ trace_of p (fst (run p s0 js)) [j])). rewrite E, <- app_assoc. auto. }
  assert (A : Forall2 alike is is') by (apply (IH is' s0); eauto using proto_app).
  apply Forall2_app; auto. constructor; [|constructor].
  pose proof (alike_out s0 is is' (proto_app p s0 _ _ P') A) as OU.
  assert (LN : length is' = length is) by (clear -F; induction F; cbn; auto).
  destruct (sends_pub is is' s0 LN OU) as [S1 S2].
  destruct (T (trace_of p s0 is) (i, output p (fst (run p s0 is)) i) [] (trace_snoc p is i s0)) as [T1 T2].
  destruct (T' (trace_of p s0 is') (i', output p (fst (run p s0 is')) i') [] (trace_snoc p is' i' s0)) as [T3 T4].
  cbn [fst] in *. rewrite S1 in T3, T4. constructor; auto; try congruence.
  intros EN. destruct P as (_ & _ & AT). destruct P' as (_ & _ & AT').
  destruct (AT (trace_of p s0 is) (i, output p (fst (run p s0 is)) i) [] (trace_snoc p is i s0) EN) as (q & l & Q1 & Q2).
  assert (EN' : i_mresp_en i' = true) by congruence.
  destruct (AT' (trace_of p s0 is') (i', output p (fst (run p s0 is')) i') [] (trace_snoc p is' i' s0) EN') as (q' & l' & Q1' & Q2').
  cbn [fst] in *. rewrite Q2, Q2'.
  assert (M : map mq_type (outstanding (trace_of p s0 is')) = map mq_type (outstanding (trace_of p s0 is))).
  { unfold outstanding. rewrite <- !skipn_map, S2. f_equal. unfold trace_of. apply memresps_len; auto; apply run_length. }
  rewrite Q1, Q1' in M. cbn in M. congruence.
Qed.

Theorem isolated_out : forall is is' s0, proto_run p s0 is -> proto_run p s0 is' -> Forall2 same_client is is' ->
  own_timing takes answers (trace_of p s0 is) -> own_timing takes answers (trace_of p s0 is') ->
  map public (map snd (trace_of p s0 is')) = map public (map snd (trace_of p s0 is)).
Proof.
  intros is is' s0 P P' F T T'. unfold trace_of. rewrite !combine_snd by (rewrite run_length; auto).
  apply alike_out; auto. apply isolated with s0; auto.
Qed.
End I.

(** A port that answers after [L] cycles is one with its own timing. *)
Lemma after_latency : forall L tr, (1 <= L)%nat -> latency L tr -> forall t1 io t2, tr = t1 ++ io :: t2 -> i_mresp_en (fst io) = after L (sends t1).
Proof.
  intros L tr G H t1 io t2 E. assert (N0 : nth_error tr (length t1) = Some io) by (rewrite E, nth_error_app2, Nat.sub_diag; auto).
  rewrite (H _ _ N0). unfold after, nth_default. 
  destruct (Nat.leb L (length t1)) eqn:LE; cbn [andb].
  - apply Nat.leb_le in LE.
    assert (LT : (length t1 - L < length t1)%nat) by lia.
    unfold sent_at. rewrite E, nth_error_app1 by auto.
    replace (nth_error (rev (sends t1)) (L - 1)) with (nth_error (sends t1) (length t1 - L)).
    + unfold sends. rewrite nth_error_map. destruct (nth_error t1 (length t1 - L)) as [x|] eqn:X; auto.
    + assert (LS : length (sends t1) = length t1) by (unfold sends; apply map_length).
      rewrite !(nth_error_nth' _ false) by (rewrite ?rev_length; lia). rewrite rev_nth by lia. f_equal. f_equal. lia.
  - apply Nat.leb_gt in LE. rewrite (proj2 (nth_error_None _ _)); auto. rewrite rev_length. unfold sends. rewrite map_length. lia.
Qed.
Lemma prompt_rdy : forall tr total tr0, prompt total tr0 tr = true -> Forall (fun io => i_mreq_rdy (fst io) = true) tr.
Proof.
  induction tr; intros total tr0 H; constructor; cbn [prompt] in H; rewrite !andb_true_iff in H; destruct H as [[[_ H] _] H2]; eauto.
Qed.

Section M.
Variables (p p' : params) (z z' : nat -> N * N) (n n' : nat).
Hypothesis W : wf_caches p z n.
Hypothesis W' : wf_caches p' z' n'.
Theorem multi_isolated : forall takes answers s0 s0' m0 m0' ts ts' m m' rq rq' rs rs' i i',
  clients p z n s0 ts -> mmem p n m0 no_reqs no_resps ts m rq rs -> (i < n)%nat ->
  clients p' z' n' s0' ts' -> mmem p' n' m0' no_reqs no_resps ts' m' rq' rs' -> (i' < n')%nat ->
  sized p' z' i' = sized p z i -> s0' i' = s0 i ->
  Forall2 same_client (map fst (proj i ts)) (map fst (proj i' ts')) ->
  own_timing takes answers (proj i ts) -> own_timing takes answers (proj i' ts') ->
  map public (map snd (proj i' ts')) = map public (map snd (proj i ts)).
Proof.
  intros takes answers s0 s0' m0 m0' ts ts' m m' rq rq' rs rs' i i' C M I C' M' I' SZ SE F T T'.
  pose proof (multi_proto p z n s0 m0 _ _ _ _ i C M I) as P. pose proof (multi_proto p' z' n' s0' m0' _ _ _ _ i' C' M' I') as P'.
  rewrite SZ, SE in P'. destruct (C i I) as (_ & C2 & _). destruct (C' i' I') as (_ & C2' & _). rewrite SZ, SE in C2'.
  rewrite C2 in T. rewrite C2' in T'. rewrite C2, C2'. apply (isolated_out (sized p z i) (W i I) takes answers); auto.
Qed.

Theorem multi_schedule : forall L total s0 m0 ts m rq rs i, clients p z n s0 ts -> mmem p n m0 no_reqs no_resps ts m rq rs -> (i < n)%nat ->
  (1 <= L)%nat -> let tr := proj i ts in prompt total [] tr = true -> latency L tr -> (length (accepted tr) <= total)%nat ->
  accept_cycles tr = lat_starts (sized p z i) L (accepted tr) /\
  answer_cycles tr = filter (fun t => Nat.ltb t (length ts)) (lat_ends (sized p z i) L (accepted tr)) /\
  ((length (accepted tr) < total)%nat -> (length ts <= lat_next (sized p z i) L (accepted tr))%nat).
Proof.
  intros L total s0 m0 ts m rq rs i C M I G tr PR LA LT. pose proof (multi_proto p z n s0 m0 _ _ _ _ i C M I) as P.
  destruct (C i I) as (_ & C2 & _). fold tr in C2, P.
  assert (LE : length (map fst tr) = length ts) by (unfold tr, proj; rewrite !map_length; auto).
  rewrite C2 in PR, LA, LT.
  destruct (schedule (sized p z i) (W i I) L G total _ _ P PR LA LT) as [A B].
  pose proof (answers (sized p z i) (W i I) L G total _ _ P PR LA LT) as D. rewrite <- C2 in *. rewrite LE in *. auto.
Qed.
End M.
