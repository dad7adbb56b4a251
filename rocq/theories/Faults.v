(** Runs outside the supported protocol: WRITE_INIT in a 2-way cache (C27) and a
    memory that answers out of order (C34). *)
From Coq Require Import PeanoNat NArith List Bool Lia.
From Verif Require Import Bits Params Msg Rtl Mem Spec System SysProofs Harness.
Import ListNotations.
Open Scope N_scope.

(** A memory that executes in order but may answer in any order
    ([mem_trace] with [mt_answer] relaxed). *)
Inductive mem_trace_ooo (p : params) : mem -> list mreq -> list mresp -> trace ->
                                       mem -> list mreq -> list mresp -> Prop :=
| mo_nil : forall m rq rs, mem_trace_ooo p m rq rs [] m rq rs
| mo_exec : forall m q rq rs tr m' rq' rs',
    mem_trace_ooo p (fst (mem_exec p m q)) rq (rs ++ [snd (mem_exec p m q)]) tr m' rq' rs' ->
    mem_trace_ooo p m (q :: rq) rs tr m' rq' rs'
| mo_quiet : forall m rq rs i o tr m' rq' rs', i_mresp_en i = false ->
    mem_trace_ooo p m (rq ++ opt_list (o_mreq o)) rs tr m' rq' rs' ->
    mem_trace_ooo p m rq rs ((i, o) :: tr) m' rq' rs'
| mo_answer : forall m rq x rs1 rs2 i o tr m' rq' rs', i_mresp_en i = true -> i_mresp i = x ->
    mem_trace_ooo p m (rq ++ opt_list (o_mreq o)) (rs1 ++ rs2) tr m' rq' rs' ->
    mem_trace_ooo p m rq (rs1 ++ x :: rs2) ((i, o) :: tr) m' rq' rs'.

(** The driver of Harness.v with a choice of the answer delivered. *)
Definition pick {A} (k : nat) (l : list A) : list A := match nth_error l k with Some x => [x] | None => [] end.
Definition drop {A} (k : nat) (l : list A) : list A := firstn k l ++ skipn (S k) l.
Fixpoint drive_ooo (p : params) (s : st) (m : mem) (rs : list mresp) (todo : list creq) (cs : list (choice * nat))
  : list inp * (mem * list mresp) :=
  match cs with
  | [] => ([], (m, rs))
  | (c, k) :: cs =>
      let i := inp_of p s (pick k rs) todo c in
      let rs1 := if i_mresp_en i then drop k rs else rs in
      let todo1 := if i_req_en i then tl todo else todo in
      let '(m2, rs2) := match o_mreq (output p s i) with
                        | Some q => let '(m2, x) := mem_exec p m q in (m2, rs1 ++ [x])
                        | None => (m, rs1) end in
      let '(is, e) := drive_ooo p (next p s i) m2 rs2 todo1 cs in (i :: is, e)
  end.

Lemma inp_rdy : forall p s rs todo c,
  req_rdy p s (inp_of p s rs todo c) = req_rdy p s (mkInp false creq0 (ch_resp_rdy c) (ch_mreq_rdy c) false mresp0).
Proof.
  intros. set (i := inp_of p s rs todo c).
  unfold req_rdy, stall01, mshr_full, alloc_en, stall01, ostall2, cs2.
  assert (I1 : i_resp_rdy i = ch_resp_rdy c /\ i_mreq_rdy i = ch_mreq_rdy c).
  { unfold i, inp_of. destruct todo, rs; try destruct (_ && _); try destruct (ch_answer c); auto. }
  destruct I1 as [-> ->]. reflexivity.
Qed.
Lemma inp_req : forall (P : creq -> Prop) p s rs todo c, Forall P todo ->
  i_req_en (inp_of p s rs todo c) = true ->
  req_rdy p s (inp_of p s rs todo c) = true /\ P (i_req (inp_of p s rs todo c)).
Proof.
  intros P p s rs todo c WF H. rewrite inp_rdy. revert H. unfold inp_of. destruct WF as [|r todo' W1 W2].
  - destruct rs; try destruct (ch_answer c); cbn; discriminate.
  - destruct (ch_send c); cbn [andb].
    + destruct (req_rdy p s _) eqn:E; destruct rs; try destruct (ch_answer c); cbn; intros H; try discriminate; split; auto.
    + destruct rs; try destruct (ch_answer c); cbn; discriminate.
Qed.
Lemma inp_ans : forall p s rs todo c, i_mresp_en (inp_of p s rs todo c) = true ->
  exists x l, rs = x :: l /\ i_mresp (inp_of p s rs todo c) = x.
Proof.
  intros p s rs todo c ME. unfold inp_of in ME |- *. destruct rs as [|x l].
  - destruct todo; try destruct (_ && _); discriminate.
  - exists x, l. split; auto. destruct (ch_answer c); destruct todo; try destruct (_ && _); auto; discriminate.
Qed.

Lemma drive_ooo_ok : forall (P : creq -> Prop) p cs s m rs todo, Forall P todo ->
  let is := fst (drive_ooo p s m rs todo cs) in
  let e := snd (drive_ooo p s m rs todo cs) in
  Forall (fun io => i_req_en (fst io) = true -> o_req_rdy (snd io) = true /\ P (i_req (fst io))) (trace_of p s is) /\
  mem_trace_ooo p m [] rs (trace_of p s is) (fst e) [] (snd e).
Proof.
  intros P p. induction cs as [|[c k] cs IH]; intros s m rs todo WF is e.
  - split; [constructor|constructor].
  - unfold is, e. cbn [drive_ooo]. set (i := inp_of p s (pick k rs) todo c).
    set (rs1 := if i_mresp_en i then drop k rs else rs).
    set (todo1 := if i_req_en i then tl todo else todo).
    set (o := output p s i).
    set (mm := match o_mreq o with Some q => let '(m2, x) := mem_exec p m q in (m2, rs1 ++ [x]) | None => (m, rs1) end).
    destruct mm as [m2 rs2] eqn:EM.
    assert (WF1 : Forall P todo1).
    { unfold todo1. destruct (i_req_en i); auto. destruct WF; cbn; auto. }
    specialize (IH (next p s i) m2 rs2 todo1 WF1).
    destruct (drive_ooo p (next p s i) m2 rs2 todo1 cs) as [is' [m' rs']]. cbn [fst snd] in *.
    destruct IH as [IH1 IH2]. rewrite trace_cons. fold o. split.
    + constructor; auto. cbn [fst snd]. intros H. apply (inp_req P p s (pick k rs) todo c WF H).
    + assert (MT : mem_trace_ooo p m (opt_list (o_mreq o)) rs1 (trace_of p (next p s i) is') m' [] rs').
      { unfold mm in EM. destruct (o_mreq o) as [q|]; cbn [opt_list].
        - apply mo_exec. destruct (mem_exec p m q) as [m3 x]. inversion EM; subst. auto.
        - inversion EM; subst. auto. }
      destruct (i_mresp_en i) eqn:ME.
      * destruct (inp_ans _ _ _ _ _ ME) as (x & l & E1 & E2). unfold pick in E1.
        destruct (nth_error rs k) as [y|] eqn:NE; [|discriminate]. inversion E1; subst y l.
        destruct (nth_error_split _ _ NE) as (l1 & l2 & ER & LK).
        assert (ED : rs1 = l1 ++ l2).
        { unfold rs1, drop. rewrite ER, <- LK. rewrite firstn_app, Nat.sub_diag, firstn_all. cbn [firstn]. rewrite app_nil_r.
          f_equal. rewrite skipn_app, skipn_all2 by lia. replace (S (length l1) - length l1)%nat with 1%nat by lia. auto. }
        rewrite ED in MT. rewrite ER. eapply mo_answer; eauto.
      * apply mo_quiet; auto.
Qed.

(** *** The schedules *)
(** C27: 0x10 and 0x30 are in the same set of the 2-way cache [px] *)
Definition ini (o a l d : N) : creq := mkCReq T_INIT o a l d.
Definition prog_i : list creq := [ini 1 0x10 0 0x11; rd 2 0x10 0; ini 3 0x30 0 0x22; rd 4 0x30 0; rd 5 0x10 0].

(** C34: request 3 evicts line 0x10; its refill is answered before the
    acknowledgement of the write-back, which comes just before request 4. *)
Definition prog_l : list creq := [wt 1 0x10 0 0xaa; rd 2 0x30 0; rd 3 0x50 0; wt 4 0x54 0 0xbb; rd 5 0x54 0].
Definition go : choice * nat := (mkCh true true true true, 0%nat).
Definition late : list (choice * nat) :=
  repeat go 19 ++ [(mkCh false true true false, 0%nat);  (* no answer yet *)
                   (mkCh false true true true, 1%nat);   (* the refill data *)
                   (mkCh false true true false, 0%nat);
                   (mkCh false true true true, 0%nat)]   (* the acknowledgement *)
  ++ repeat go 12.
