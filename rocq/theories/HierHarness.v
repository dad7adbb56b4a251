(** An executable client and memory for two cache levels: concrete runs for C57. *)
From Coq Require Import NArith PeanoNat List Bool Lia.
From Verif Require Import Bits Params Msg Rtl Mem Spec System SysProofs SysFacts Harness Idle2 HierSpec.
Import ListNotations.
Open Scope N_scope.

Definition inp2_of (p1 p2 : params) (s1 s2 : st) (rs : list mresp) (todo : list creq) (c : choice) : inp :=
  let i0 := mkInp false creq0 (ch_resp_rdy c) (ch_mreq_rdy c) false mresp0 in
  let rd := o_req_rdy (output p1 s1 (fst (wire p1 p2 s1 s2 i0))) in
  let '(en, r) := match todo with
                  | r :: _ => if ch_send c && rd then (true, r) else (false, creq0)
                  | [] => (false, creq0) end in
  let '(ma, x) := match rs with
                  | x :: _ => if ch_answer c then (true, x) else (false, mresp0)
                  | [] => (false, mresp0) end in
  mkInp en r (ch_resp_rdy c) (ch_mreq_rdy c) ma x.

Fixpoint drive2 (p1 p2 : params) (s1 s2 : st) (m : mem) (rs : list mresp) (todo : list creq) (cs : list choice)
  : list inp * (mem * list mresp) :=
  match cs with
  | [] => ([], (m, rs))
  | c :: cs =>
      let i := inp2_of p1 p2 s1 s2 rs todo c in
      let w := wire p1 p2 s1 s2 i in
      let rs1 := if i_mresp_en i then tl rs else rs in
      let todo1 := if i_req_en i then tl todo else todo in
      let '(m2, rs2) := match o_mreq (output p2 s2 (snd w)) with
                        | Some q => let '(m2, x) := mem_exec p2 m q in (m2, rs1 ++ [x])
                        | None => (m, rs1) end in
      let '(is, e) := drive2 p1 p2 (next p1 s1 (fst w)) (next p2 s2 (snd w)) m2 rs2 todo1 cs in (i :: is, e)
  end.

Lemma drive2_ok : forall p1 p2 cs s1 s2 m rs todo, Forall (wf_req p1) todo ->
  let is := fst (drive2 p1 p2 s1 s2 m rs todo cs) in
  let e := snd (drive2 p1 p2 s1 s2 m rs todo cs) in
  client_ok p1 (upper p1 p2 s1 s2 is) /\ mem_trace p2 m [] rs (lower p1 p2 s1 s2 is) (fst e) [] (snd e).
Proof.
  intros p1 p2. induction cs as [|c cs IH]; intros s1 s2 m rs todo WF is e.
  - split; [constructor|constructor].
  - unfold is, e. cbn [drive2]. cbv zeta. set (i := inp2_of p1 p2 s1 s2 rs todo c). set (w := wire p1 p2 s1 s2 i).
    set (rs1 := if i_mresp_en i then tl rs else rs).
    set (todo1 := if i_req_en i then tl todo else todo).
    set (o := output p2 s2 (snd w)).
    set (mm := match o_mreq o with Some q => let '(m2, x) := mem_exec p2 m q in (m2, rs1 ++ [x]) | None => (m, rs1) end).
    destruct mm as [m2 rs2] eqn:EM.
    assert (WF1 : Forall (wf_req p1) todo1).
    { unfold todo1. destruct (i_req_en i); auto. destruct WF; cbn; auto. }
    specialize (IH (next p1 s1 (fst w)) (next p2 s2 (snd w)) m2 rs2 todo1 WF1).
    destruct (drive2 p1 p2 (next p1 s1 (fst w)) (next p2 s2 (snd w)) m2 rs2 todo1 cs) as [is' [m' rs']]. cbn [fst snd] in *.
    destruct IH as [IH1 IH2]. unfold upper, lower in *. cbn [stack map]. cbv zeta. fold w. rewrite !trace_cons. fold o.
    set (o1 := output p1 s1 (fst w)).
    assert (I1 : i_resp_rdy i = ch_resp_rdy c /\ i_mreq_rdy i = ch_mreq_rdy c).
    { unfold i, inp2_of. destruct todo, rs; try destruct (_ && _); try destruct (ch_answer c); auto. }
    assert (RI : i_req_en (fst w) = true -> o_req_rdy o1 = true /\ wf_req p1 (i_req (fst w))).
    { assert (RD : o_req_rdy o1 = o_req_rdy (output p1 s1 (fst (wire p1 p2 s1 s2 (mkInp false creq0 (ch_resp_rdy c) (ch_mreq_rdy c) false mresp0))))).
      { f_equal. apply comb_ports.
        - unfold w. cbn [wire fst i_resp_rdy]. apply I1.
        - unfold w. cbn [wire fst i_mreq_rdy]. f_equal. apply comb_ports; cbn [i_resp_rdy i_mreq_rdy]; auto. apply I1. }
      rewrite RD. change (i_req_en (fst w)) with (i_req_en i). change (i_req (fst w)) with (i_req i).
      unfold i, inp2_of. cbv zeta. set (rdy := o_req_rdy (output p1 s1 _)). clearbody rdy. destruct WF as [|r todo' W1 W2].
      - destruct rs; try destruct (ch_answer c); cbn [i_req_en]; discriminate.
      - destruct (ch_send c), rdy, rs; cbn [andb]; try destruct (ch_answer c); cbn [i_req_en i_req]; intros H; try discriminate H; auto. }
    split.
    + constructor; auto.
    + assert (MT : mem_trace p2 m (opt_list (o_mreq o)) rs1 (trace_of p2 (next p2 s2 (snd w)) (map snd (stack p1 p2 (next p1 s1 (fst w)) (next p2 s2 (snd w)) is'))) m' [] rs').
      { unfold mm in EM. destruct (o_mreq o) as [q|]; cbn [opt_list].
        - apply mt_exec. destruct (mem_exec p2 m q) as [m3 x]. inversion EM; subst. auto.
        - inversion EM; subst. auto. }
      destruct (i_mresp_en i) eqn:ME.
      * assert (X : exists x l, rs = x :: l /\ i_mresp i = x).
        { unfold i, inp2_of in ME |- *. destruct rs as [|x l].
          - destruct todo; try destruct (_ && _); discriminate.
          - exists x, l. split; auto. destruct (ch_answer c); destruct todo; try destruct (_ && _); auto; discriminate. }
        destruct X as (x & l & E1 & E2). unfold rs1 in MT. rewrite E1 in *. cbn [tl] in MT. eapply mt_answer; eauto.
      * apply mt_quiet; auto.
Qed.

Theorem drive2_run : forall p1 p2 cs t1 d1 t2 d2 m todo, Forall (wf_req p1) todo ->
  let s1 := mk_reset p1 t1 d1 in let s2 := mk_reset p2 t2 d2 in
  let e := snd (drive2 p1 p2 s1 s2 m [] todo cs) in
  stack_run p1 p2 s1 s2 (fst (drive2 p1 p2 s1 s2 m [] todo cs)) m (fst e) [] (snd e).
Proof.
  intros p1 p2 cs t1 d1 t2 d2 m todo WF s1 s2 e. destruct (drive2_ok p1 p2 cs s1 s2 m [] todo WF) as [C M].
  split; [apply mk_reset_ok|]. split; [apply mk_reset_ok|]. split; auto.
Qed.

(** An environment that never waits serves the second level in every cycle. *)
Lemma outst_count : forall t io, (length (memresps t) <= length (memreqs t))%nat -> (i_mresp_en (fst io) = true -> (0 < length (outstanding t))%nat) ->
  (length (memresps (t ++ [io])) <= length (memreqs (t ++ [io])))%nat /\
  length (outstanding (t ++ [io])) = (length (outstanding t) - (if i_mresp_en (fst io) then 1 else 0) + length (opt_list (o_mreq (snd io))))%nat.
Proof.
  intros t [i o] LE H. unfold outstanding in *. rewrite !skipn_length in *. rewrite memresps_app, memreqs_app, !app_length.
  assert (E1 : length (memresps [(i, o)]) = if i_mresp_en i then 1%nat else 0%nat) by (unfold memresps; cbn [flat_map fst]; destruct (i_mresp_en i); reflexivity).
  assert (E2 : length (memreqs [(i, o)]) = length (opt_list (o_mreq o))) by (unfold memreqs; cbn [flat_map snd]; rewrite app_nil_r; reflexivity).
  rewrite E1, E2. cbn [fst snd] in *. destruct (i_mresp_en i); [specialize (H eq_refl)|]; lia.
Qed.
Lemma served_eager : forall p1 p2 n s1 s2 m rs todo t0, (length (memresps t0) <= length (memreqs t0))%nat -> length (outstanding t0) = length rs ->
  let is := fst (drive2 p1 p2 s1 s2 m rs todo (eager n)) in
  served t0 (upper p1 p2 s1 s2 is) (lower p1 p2 s1 s2 is) = n.
Proof.
  intros p1 p2. induction n as [|n IH]; intros s1 s2 m rs todo t0 LE OL; [reflexivity|]. unfold eager. cbn [repeat]. fold (eager n). cbn [drive2]. cbv zeta.
  set (c := mkCh true true true true). set (i := inp2_of p1 p2 s1 s2 rs todo c). set (w := wire p1 p2 s1 s2 i).
  set (rs1 := if i_mresp_en i then tl rs else rs). set (todo1 := if i_req_en i then tl todo else todo). set (o := output p2 s2 (snd w)).
  set (mm := match o_mreq o with Some q => let '(m2, x) := mem_exec p2 m q in (m2, rs1 ++ [x]) | None => (m, rs1) end).
  destruct mm as [m2 rs2] eqn:EM.
  assert (ME : i_mresp_en i = match rs with [] => false | _ => true end).
  { unfold i, inp2_of, c. cbn [ch_answer ch_send]. cbv zeta. destruct todo, rs; try destruct (_ && _); reflexivity. }
  assert (RI : i_resp_rdy i = true /\ i_mreq_rdy i = true).
  { unfold i, inp2_of, c. cbn [ch_answer ch_send ch_resp_rdy ch_mreq_rdy]. cbv zeta. destruct todo, rs; try destruct (_ && _); split; reflexivity. }
  destruct (outst_count t0 (snd w, o) LE) as [LE2 OL2].
  { cbn [fst]. change (i_mresp_en (snd w)) with (i_mresp_en i). rewrite ME, OL. destruct rs; [discriminate|cbn; lia]. }
  cbn [fst snd] in OL2. change (i_mresp_en (snd w)) with (i_mresp_en i) in OL2.
  assert (L2 : length rs2 = length (outstanding (t0 ++ [(snd w, o)]))).
  { rewrite OL2, OL. unfold mm, rs1 in EM. rewrite ME in *. destruct (o_mreq o) as [q|]; [destruct (mem_exec p2 m q) as [m3 x]|]; inversion EM; subst;
    rewrite ?app_length; destruct rs; cbn [length tl opt_list]; lia. }
  specialize (IH (next p1 s1 (fst w)) (next p2 s2 (snd w)) m2 rs2 todo1 (t0 ++ [(snd w, o)]) LE2 (eq_sym L2)). cbv zeta in IH.
  destruct (drive2 p1 p2 (next p1 s1 (fst w)) (next p2 s2 (snd w)) m2 rs2 todo1 (eager n)) as [is' e']. cbn [fst] in *.
  unfold upper, lower in *. cbn [stack map]. cbv zeta. fold w. rewrite !trace_cons. fold o. cbn [served]. rewrite IH. cbn [fst].
  assert (G : i_resp_rdy (fst w) && productive t0 (snd w) = true).
  { change (i_resp_rdy (fst w)) with (i_resp_rdy i). unfold productive. change (i_resp_rdy (snd w)) with true. change (i_mreq_rdy (snd w)) with (i_mreq_rdy i).
    change (i_mresp_en (snd w)) with (i_mresp_en i). destruct RI as [-> ->]. cbn [andb]. rewrite ME. destruct (outstanding t0); auto. destruct rs; [discriminate OL|auto]. }
  rewrite G. reflexivity.
Qed.
