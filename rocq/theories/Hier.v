(** Two cache levels: proofs for C57. *)
From Coq Require Import NArith PeanoNat List Bool Lia.
From Verif Require Import Bits Params Msg Rtl Mem Spec System Traffic SysProofs SysFacts Facts1 Facts2 Facts3 Hide Proto Idle2 HierSpec ParamsProofs RefineProofs.
Import ListNotations.
Open Scope N_scope.

Lemma stack_snoc : forall p1 p2 is s1 s2 i,
  stack p1 p2 s1 s2 (is ++ [i]) = stack p1 p2 s1 s2 is ++
    [wire p1 p2 (fst (run p1 s1 (map fst (stack p1 p2 s1 s2 is)))) (fst (run p2 s2 (map snd (stack p1 p2 s1 s2 is)))) i].
Proof.
  intros p1 p2. induction is as [|j is IH]; intros s1 s2 i; [reflexivity|]. cbn [app stack map]. cbv zeta.
  rewrite IH. cbn [app]. f_equal. f_equal. f_equal.
  unfold run at 3 4. fold run. cbn [step fst snd].
  destruct (run p1 _ _), (run p2 _ _). reflexivity.
Qed.

Lemma traffic_no_write : forall p A L m G, Forall (fun r => cq_type r <> T_WRITE) A -> traffic p none L m A G ->
  Forall (fun q => mq_type q <> T_WRITE) (concat G).
Proof.
  intros p. induction A as [|r A IH]; intros L m G NW T; destruct G as [|g G]; cbn [traffic] in T; try tauto; [constructor|].
  destruct T as [T1 T2]. inversion NW as [|? ? NW1 NW2]; subst.
  assert (NB : forall wb, wbs_ok p none m wb -> wb = []).
  { intros [|q wb]; auto. intros [K _]. exfalso. destruct K. apply wb_some. apply N.bits_inj. intros j. rewrite wb_mask, N.bits_0.
    unfold none. apply andb_false_r. }
  assert (NM : Forall (fun q => mq_type q <> T_WRITE) g).
  { unfold req_traffic in T1. destruct (rw_req r) eqn:RW.
    - destruct (in_dec _ _ _); [subst; constructor|]. destruct T1 as (wb & q & -> & W & _ & _ & TY & _). rewrite (NB _ W).
      constructor; [rewrite TY; discriminate|constructor].
    - destruct (is_amo (cq_type r)) eqn:AM.
      + destruct T1 as (wb & q & -> & W & _ & _ & _ & TY & _). rewrite (NB _ W). constructor; [rewrite TY; auto|constructor].
      + destruct (cq_type r =? T_FLUSH); [|subst; constructor]. destruct T1 as [W _]. rewrite (NB _ W). constructor. }
  cbn [concat]. apply Forall_app. split; auto.
  assert (E : mark p (clears p none (writes g)) r = none).
  { assert (W0 : writes g = []).
    { unfold writes. clear - NM. induction NM as [|q g H NM IH]; auto. cbn [filter]. unfold is_write.
      destruct (mq_type q =? T_WRITE) eqn:E; auto. apply N.eqb_eq in E. contradiction. }
    rewrite W0. unfold mark. destruct (cq_type r =? T_WRITE) eqn:E; [apply N.eqb_eq in E; contradiction|reflexivity]. }
  rewrite E in T2. apply (IH _ _ _ NW2 T2).
Qed.

(** Without WRITEs no memory request is a WRITE. *)
Lemma proto_no_write : forall p, wf_params p -> forall s0 is, proto_run p s0 is -> no_write (trace_of p s0 is) ->
  Forall (fun q => mq_type q <> T_WRITE) (memreqs (trace_of p s0 is)).
Proof.
  intros p W s0 is P NW. destruct (proto_traffic p W s0 is (fun _ => 0) P) as (G & T & (rest & E) & _).
  pose proof (traffic_no_write _ _ _ _ _ NW T) as F.
  assert (F2 : Forall (fun q => mq_type q <> T_WRITE) (map hide_mreq (memreqs (trace_of p s0 is)) ++ rest)).
  { rewrite <- E. rewrite Forall_forall in *. intros q IN. apply in_map_iff in IN. destruct IN as (q0 & <- & IN). exact (F _ IN). }
  apply Forall_app in F2. destruct F2 as [F2 _]. rewrite Forall_forall in *. intros q IN. exact (F2 _ (in_map _ _ _ IN)).
Qed.

Section H.
Variables p1 p2 : params.
Hypothesis W1 : wf_params p1.
Hypothesis W2 : wf_params p2.
Hypothesis FT : fits p1 p2.

Lemma fits_bytes : p_dbw p2 / 8 = p_clw p1 / 8.
Proof. destruct FT as [E _]. rewrite E. auto. Qed.

(** What the second level does for a memory request of the first is what memory does. *)
Lemma down_exec : forall m q, mq_len q = 0 /\ mq_type q = T_READ \/ mq_len q = 4 /\ is_amo (mq_type q) = true ->
  flat_exec p2 m (down_req q) = (fst (mem_exec p1 m q), mr_data (snd (mem_exec p1 m q))).
Proof.
  intros m q [[L T]|[L T]]; unfold flat_exec, mem_exec, down_req, req_bytes; cbn [cq_type cq_addr cq_len cq_data].
  - rewrite T, L. cbn [N.eqb andb fst snd mr_data]. rewrite fits_bytes. reflexivity.
  - assert (N1 : (mq_type q =? T_READ) = false) by (destruct (mq_type q =? T_READ) eqn:E; auto; apply N.eqb_eq in E; rewrite E in T; discriminate T).
    assert (N2 : (mq_type q =? T_WRITE) = false) by (destruct (mq_type q =? T_WRITE) eqn:E; auto; apply N.eqb_eq in E; rewrite E in T; discriminate T).
    rewrite N1, N2, T. cbn [fst snd mr_data]. unfold slice. rewrite N.shiftr_0_r. reflexivity.
Qed.

Lemma is_amo_range : forall t, is_amo t = true -> T_AMO_ADD <= t < T_INV.
Proof. intros t H. unfold is_amo in H. apply andb_true_iff in H. destruct H as [A B]. apply N.leb_le in A. apply N.ltb_lt in B. auto. Qed.

Lemma dbw2_cases : p_dbw p2 = 64 \/ p_dbw p2 = 128.
Proof.
  destruct (wf_dbw p2 W2) as [E|E]; auto. exfalso. destruct FT as [F _]. destruct (wf_clw p1 W1) as (a & Ea & La).
  rewrite E, Ea in F. assert (2 ^ 6 <= 2 ^ a) by (apply N.pow_le_mono_r; lia). change (2 ^ 6) with 64 in *. lia.
Qed.

(** Memory requests of the first level, WRITEs apart, are supported by the second. *)
Lemma down_wf : forall s0 is q, proto_run p1 s0 is -> In q (memreqs (trace_of p1 s0 is)) -> mq_type q <> T_WRITE ->
  wf_req p2 (down_req q) /\ (mq_len q = 0 /\ mq_type q = T_READ \/ mq_len q = 4 /\ is_amo (mq_type q) = true).
Proof.
  intros s0 is q P IN NW. pose proof (proto_shape p1 W1 s0 is P) as F. cbv zeta in F. rewrite Forall_forall in F. specialize (F q IN).
  assert (LW : lenw p2 = 3 \/ lenw p2 = 4) by (unfold lenw; destruct dbw2_cases as [-> | ->]; [left|right]; reflexivity).
  destruct FT as [FD FA]. destruct F as [(T & AL & AB & LE)|(r & INr & AM & TY & AD & _ & LE)].
  - destruct T as [T|[T _]]; [|contradiction]. split; [|auto]. unfold wf_req, down_req; cbn [cq_addr cq_len cq_type cq_data].
    rewrite LE, FA. split; auto. split; [destruct LW as [-> | ->]; reflexivity|]. left. unfold wf_read, req_bytes; cbn [cq_addr cq_len cq_type].
    rewrite T. cbn [N.eqb andb]. split; auto. rewrite FD. split; auto. rewrite <- FD. unfold pow2_size. destruct dbw2_cases as [-> | ->]; cbv; auto.
  - split; [|auto]. assert (C : wf_req p1 r).
    { destruct P as (_ & C & _). unfold client_ok in C. rewrite Forall_forall in C. unfold accepted in INr. apply in_flat_map in INr.
      destruct INr as (io & I1 & I2). specialize (C io I1). destruct (i_req_en (fst io)); [|destruct I2]. destruct I2 as [<-|[]]. apply C; auto. }
    destruct C as (AB & _ & C). unfold wf_req, down_req; cbn [cq_addr cq_len cq_type cq_data]. rewrite AD, FA, LE. split; auto.
    split; [destruct LW as [-> | ->]; reflexivity|]. right. right. left. unfold wf_amo; cbn [cq_addr cq_len cq_type].
    rewrite TY in *. unfold T_READ, T_WRITE, T_INV, T_FLUSH, T_AMO_ADD in *. apply is_amo_range in AM. unfold T_INV, T_AMO_ADD in AM.
    destruct C as [C|[C|[C|[C|C]]]]; try (unfold wf_read, wf_write, T_READ, T_WRITE in C; lia).
    destruct C as (C1 & C2 & _). auto.
Qed.

(** The second level's requests and responses are the first level's memory traffic. *)
Lemma stack_wires : forall is s1 s2, let t1 := upper p1 p2 s1 s2 is in let t2 := lower p1 p2 s1 s2 is in
  accepted t2 = map down_req (memreqs t1) /\ memresps t1 = map up_resp (responses t2).
Proof.
  induction is as [|i is IH] using rev_ind; intros s1 s2; [split; reflexivity|]. unfold upper, lower. cbv zeta.
  rewrite stack_snoc, !map_app. cbn [map]. rewrite !trace_snoc.
  set (f1 := fst (run p1 s1 _)). set (f2 := fst (run p2 s2 _)).
  specialize (IH s1 s2). cbv zeta in IH. unfold upper, lower in IH. destruct IH as [IH1 IH2].
  rewrite accepted_app, memreqs_app, memresps_app, responses_app, !map_app, IH1, IH2. split; f_equal.
  - unfold accepted, memreqs, wire. cbn [flat_map fst snd i_req_en i_req]. rewrite !app_nil_r.
    destruct (o_mreq _); reflexivity.
  - rewrite (comb_ports p2 f2 (mkInp false creq0 true (i_mreq_rdy i) (i_mresp_en i) (i_mresp i)) (snd (wire p1 p2 f1 f2 i)) eq_refl eq_refl).
    unfold memresps, responses, wire. cbn [flat_map fst snd i_mresp_en i_mresp]. rewrite !app_nil_r.
    destruct (o_resp _); reflexivity.
Qed.

Lemma mt_swap : forall m rq rs i i' o m' rq' rs', i_mresp_en i' = i_mresp_en i -> i_mresp i' = i_mresp i ->
  mem_trace p2 m rq rs [(i, o)] m' rq' rs' -> mem_trace p2 m rq rs [(i', o)] m' rq' rs'.
Proof.
  intros m rq rs i i' o m' rq' rs' E1 E2 M. remember [(i, o)] as tr eqn:ET. induction M; try discriminate ET.
  - apply mt_exec. auto.
  - inversion ET; subst. apply mt_quiet; auto. congruence.
  - inversion ET; subst. apply mt_answer; auto. congruence.
Qed.

Lemma flat_split : forall p A B m, flat_data p m (A ++ B) = flat_data p m A ++ flat_data p (flat_mem p m A) B.
Proof. intros p. induction A as [|r A IH]; intros; cbn [app flat_data flat_mem]; auto. rewrite IH. auto. Qed.
Lemma flat_len : forall p A m, length (flat_data p m A) = length A.
Proof. intros p. induction A; intros; cbn; auto. Qed.

Theorem stack_sys : forall is s1 s2 m0 m rq rs, stack_run p1 p2 s1 s2 is m0 m rq rs -> no_write (upper p1 p2 s1 s2 is) ->
  sys_run p2 s2 (map snd (stack p1 p2 s1 s2 is)) m0 m rq rs /\
  sys_run p1 s1 (map fst (stack p1 p2 s1 s2 is)) m0
    (flat_mem p2 m0 (firstn (length (responses (lower p1 p2 s1 s2 is))) (accepted (lower p1 p2 s1 s2 is))))
    (outstanding (upper p1 p2 s1 s2 is)) [].
Proof.
  induction is as [|i is IH] using rev_ind; intros s1 s2 m0 m rq rs (R1 & R2 & C & M) NW.
  - cbn [stack map]. unfold upper, lower. cbn. inversion M; subst. split; (split; [assumption|split; [constructor|constructor]]).
  - pose proof (stack_wires is s1 s2) as [WA WR].
    unfold stack_run, upper, lower, no_write in *. rewrite stack_snoc, !map_app in *. cbn [map] in *. rewrite !trace_snoc in *.
    set (is1 := map fst (stack p1 p2 s1 s2 is)) in *. set (is2 := map snd (stack p1 p2 s1 s2 is)) in *.
    set (f1 := fst (run p1 s1 is1)) in *. set (f2 := fst (run p2 s2 is2)) in *.
    set (t1 := trace_of p1 s1 is1) in *. set (t2 := trace_of p2 s2 is2) in *.
    apply Forall_app in C. destruct C as [C1 C2].
    apply mem_trace_app in M. destruct M as (mm & rqm & rsm & M1 & M2).
    rewrite accepted_app in NW. apply Forall_app in NW. destruct NW as [NW1 NW2].
    destruct (IH s1 s2 m0 mm rqm rsm) as [IS2 IS1]; [exact (conj R1 (conj R2 (conj C1 M1)))|exact NW1|]. clear IH.
    fold is1 is2 t1 t2 in IS1, IS2.
    destruct (wire p1 p2 f1 f2 i) as [i1 i2] eqn:EW. cbn [fst snd] in *.
    set (ix := mkInp false creq0 true (i_mreq_rdy i) (i_mresp_en i) (i_mresp i)) in *.
    assert (E2 : output p2 f2 i2 = output p2 f2 ix) by (apply comb_ports; unfold wire in EW; inversion EW; reflexivity).
    set (o2 := output p2 f2 ix) in *.
    assert (Ei1 : i1 = mkInp (i_req_en i) (i_req i) (i_resp_rdy i) (o_req_rdy o2) (is_some (o_resp o2)) (match o_resp o2 with Some y => up_resp y | None => mresp0 end))
      by (unfold wire in EW; inversion EW; reflexivity).
    set (o1 := output p1 f1 i1) in *.
    assert (Ei2 : i2 = mkInp (is_some (o_mreq o1)) (match o_mreq o1 with Some q => down_req q | None => creq0 end) true (i_mreq_rdy i) (i_mresp_en i) (i_mresp i)).
    { unfold o1. rewrite Ei1. unfold wire in EW. inversion EW. reflexivity. }
    clear EW. rewrite E2 in *.
    (* second level, without the new request *)
    assert (SX : sys_run p2 s2 (is2 ++ [ix]) m0 m rq rs).
    { split; auto. rewrite trace_snoc. fold f2 o2 t2. split.
      - apply Forall_app. split; [apply IS2|]. constructor; [|constructor]. cbn [fst]. unfold ix. cbn. discriminate.
      - eapply mem_trace_join; [exact M1|]. eapply mt_swap; [| |exact M2]; rewrite Ei2; reflexivity. }
    (* what it answers *)
    set (mc := flat_mem p2 m0 (firstn (length (responses t2)) (accepted t2))) in *.
    pose proof (proto_no_write p1 W1 s1 is1 (sys_proto p1 _ _ _ _ _ _ IS1) NW1) as NM. fold t1 in NM.
    assert (AN : forall y, o_resp o2 = Some y -> exists q l, outstanding t1 = q :: l /\ up_resp y = snd (mem_exec p1 mc q) /\
                   flat_mem p2 m0 (firstn (S (length (responses t2))) (accepted t2)) = fst (mem_exec p1 mc q)).
    { intros y Y. destruct (sys_flat p2 W2 _ _ _ _ _ _ SX) as (r1 & F). destruct (sys_echo p2 W2 _ _ _ _ _ _ SX) as (r2 & G).
      rewrite trace_snoc in F, G. fold f2 o2 t2 in F, G. rewrite accepted_app, responses_app in F, G.
      assert (EA : accepted [(ix, o2)] = []) by reflexivity. assert (ER : responses [(ix, o2)] = [y]) by (unfold responses; cbn [flat_map snd]; rewrite Y; reflexivity).
      rewrite EA, ER, app_nil_r in F, G. rewrite !map_app, <- !app_assoc in F, G. cbn [map app] in F, G.
      set (n := length (responses t2)) in *.
      assert (LN : (n < length (accepted t2))%nat).
      { apply (f_equal (@length _)) in G. rewrite map_length, app_length, map_length in G. cbn [length] in G. fold n in G. lia. }
      destruct (nth_error (accepted t2) n) as [r|] eqn:NR; [|apply nth_error_None in NR; lia].
      apply nth_error_split in NR. destruct NR as (A & B & EAB & LA).
      assert (FN : firstn n (accepted t2) = A) by (rewrite EAB, <- LA, firstn_app, firstn_all, Nat.sub_diag; cbn; apply app_nil_r).
      assert (FS : firstn (S n) (accepted t2) = A ++ [r]).
      { rewrite EAB. replace (A ++ r :: B) with ((A ++ [r]) ++ B) by (rewrite <- app_assoc; auto).
        replace (S n) with (length (A ++ [r])) by (rewrite app_length; cbn; lia). rewrite firstn_app, firstn_all, Nat.sub_diag. cbn. apply app_nil_r. }
      assert (HD : cr_data y = snd (flat_exec p2 mc r)).
      { rewrite EAB, flat_split in F. cbn [flat_data] in F. apply app_split in F; [|rewrite flat_len, map_length; fold n; auto].
        destruct F as [_ F]. inversion F. unfold mc. fold n. rewrite FN. reflexivity. }
      assert (HE : echo r = echo_y y).
      { rewrite EAB, map_app in G. cbn [map] in G. apply app_split in G; [|rewrite !map_length; fold n; auto]. destruct G as [_ G]. revert G. generalize (echo r) (echo_y y). clear. intros. congruence. }
      assert (OT : exists q l, outstanding t1 = q :: l /\ r = down_req q /\ In q (memreqs t1)).
      { unfold outstanding. rewrite WR, map_length. fold n. rewrite WA in EAB.
        assert (ES : skipn n (map down_req (memreqs t1)) = r :: B) by (rewrite EAB, <- LA, skipn_app, skipn_all, Nat.sub_diag; reflexivity).
        rewrite skipn_map in ES. destruct (skipn n (memreqs t1)) as [|q l] eqn:SK; [discriminate ES|]. inversion ES. exists q, l. split; auto. split; auto.
        rewrite <- (firstn_skipn n (memreqs t1)), SK. apply in_app_iff. right. left. auto. }
      destruct OT as (q & l & OT & -> & INq). exists q, l. split; auto.
      rewrite Forall_forall in NM. destruct (down_wf s1 is1 q (sys_proto p1 _ _ _ _ _ _ IS1) INq (NM _ INq)) as [_ SH].
      pose proof (down_exec mc q SH) as DE. rewrite DE in HD. cbn [snd] in HD. split.
      - unfold up_resp. rewrite HD. unfold echo, echo_y, down_req in HE. cbn [cq_type cq_opq cq_len] in HE. inversion HE as [[H1 H2 H3]].
        unfold mem_exec. destruct SH as [[L T]|[L T]].
        + rewrite T. cbn [N.eqb]. reflexivity.
        + destruct (mq_type q =? T_READ); [reflexivity|]. destruct (mq_type q =? T_WRITE) eqn:EQ; [|reflexivity].
          apply N.eqb_eq in EQ. rewrite EQ in T. discriminate T.
      - rewrite FS. unfold mc in *. fold n in DE |- *. rewrite FN in *.
        assert (FM : forall A m r, flat_mem p2 m (A ++ [r]) = fst (flat_exec p2 (flat_mem p2 m A) r)) by (clear; induction A; intros; cbn; auto).
        rewrite FM, DE. reflexivity. }
    (* first level *)
    assert (LE1 := sys_resps_le p1 _ _ _ _ _ _ IS1). fold t1 in LE1.
    assert (ON : outstanding (t1 ++ [(i1, o1)]) = outst_next (outstanding t1) i1 o1).
    { apply outstanding_next; auto. intros ME. rewrite Ei1 in ME. cbn [i_mresp_en] in ME. destruct (o_resp o2) as [y|] eqn:Y; [|discriminate ME].
      destruct (AN y eq_refl) as (q & l & -> & _). discriminate. }
    assert (RSP : responses (t2 ++ [(i2, o2)]) = responses t2 ++ opt_list (o_resp o2)) by (rewrite responses_app; unfold responses at 2; cbn [flat_map snd]; rewrite app_nil_r; reflexivity).
    assert (ACC : firstn (length (responses (t2 ++ [(i2, o2)]))) (accepted (t2 ++ [(i2, o2)])) =
                  firstn (length (responses t2) + length (opt_list (o_resp o2))) (accepted t2)).
    { rewrite RSP, app_length, accepted_app. rewrite firstn_app.
      assert (L : (length (responses t2) + length (opt_list (o_resp o2)) <= length (accepted t2))%nat).
      { destruct (o_resp o2) as [y|] eqn:Y; cbn [opt_list length].
        - destruct (AN y eq_refl) as (q & l & OT & _). unfold outstanding in OT. rewrite WA, map_length.
          apply (f_equal (@length _)) in OT. rewrite skipn_length, WR, map_length in OT. cbn [length] in OT. lia.
        - rewrite WA, map_length. rewrite WR, map_length in LE1. lia. }
      replace (_ - _)%nat with 0%nat by lia. cbn [firstn]. apply app_nil_r. }
    rewrite ACC, ON.
    assert (S1 : sys_run p1 s1 (is1 ++ [i1]) m0 (flat_mem p2 m0 (firstn (length (responses t2) + length (opt_list (o_resp o2))) (accepted t2)))
                   (outst_next (outstanding t1) i1 o1) []).
    { split; auto. rewrite trace_snoc. fold t1 f1 o1. split; [apply Forall_app; split; auto|].
      eapply mem_trace_join; [apply IS1|]. fold mc. unfold outst_next. rewrite Ei1. cbn [i_mresp_en]. destruct (o_resp o2) as [y|] eqn:Y; cbn [is_some opt_list length].
      - destruct (AN y eq_refl) as (q & l & OT & UR & FM). rewrite OT. apply mt_exec. cbn [app].
        replace (length (responses t2) + 1)%nat with (S (length (responses t2))) by lia. rewrite FM.
        apply mt_answer; [reflexivity|cbn [i_mresp]; exact UR|]. cbn [tl]. apply mt_nil.
      - rewrite Nat.add_0_r. fold mc. apply mt_quiet; [reflexivity|]. apply mt_nil. }
    split; [|exact S1].
    (* second level, with the request *)
    split; auto. rewrite trace_snoc. fold t2 f2. rewrite E2. split; [|eapply mem_trace_join; [exact M1|exact M2]].
    apply Forall_app. split; [apply IS2|]. constructor; [|constructor]. cbn [fst snd]. rewrite Ei2. cbn [i_req_en i_req]. intros EN.
    destruct (o_mreq o1) as [q|] eqn:Q; [|discriminate EN].
    assert (P1 := sys_proto p1 _ _ _ _ _ _ S1).
    assert (INq : In q (memreqs (trace_of p1 s1 (is1 ++ [i1])))).
    { rewrite trace_snoc. fold t1 f1 o1. rewrite memreqs_app. apply in_app_iff. right. unfold memreqs. cbn [flat_map snd]. rewrite Q. left. auto. }
    split.
    + destruct (sends_ready p1 s1 is1 i1) as [_ RD].
      { rewrite run_app. cbn [run step fst snd]. rewrite last_last. right. fold f1 o1. rewrite Q. discriminate. }
      rewrite Ei1 in RD. exact RD.
    + assert (NM2 : no_write (trace_of p1 s1 (is1 ++ [i1]))).
      { unfold no_write. rewrite trace_snoc. fold t1 f1 o1. rewrite accepted_app. apply Forall_app. auto. }
      pose proof (proto_no_write p1 W1 s1 _ P1 NM2) as NX. rewrite Forall_forall in NX.
      exact (proj1 (down_wf s1 _ q P1 INq (NX _ INq))).
Qed.

Theorem stack_levels : forall is s1 s2 m0 m rq rs, stack_run p1 p2 s1 s2 is m0 m rq rs -> no_write (upper p1 p2 s1 s2 is) ->
  sys_run p2 s2 (map snd (stack p1 p2 s1 s2 is)) m0 m rq rs /\
  exists m1 rq1, sys_run p1 s1 (map fst (stack p1 p2 s1 s2 is)) m0 m1 rq1 [].
Proof. intros is s1 s2 m0 m rq rs R NW. destruct (stack_sys is s1 s2 m0 m rq rs R NW) as [S2 S1]. split; [exact S2|]. eexists _, _. exact S1. Qed.
End H.
