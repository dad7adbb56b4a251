(** An executable client and memory, used to exhibit concrete runs: examples that
    the hypotheses of the property theorems are met, and counterexamples. *)
From Coq Require Import NArith List Bool Lia.
From Verif Require Import Bits Params Msg Rtl Mem Spec System SysProofs.
Import ListNotations.
Open Scope N_scope.

(** What the environment would like to do in a cycle. *)
Record choice := mkCh {
  ch_send : bool;        (* send the next request of the program if the cache is ready *)
  ch_resp_rdy : bool; ch_mreq_rdy : bool;
  ch_answer : bool       (* deliver a memory answer if there is one *)
}.

Definition inp_of (p : params) (s : st) (rs : list mresp) (todo : list creq) (c : choice) : inp :=
  let i0 := mkInp false creq0 (ch_resp_rdy c) (ch_mreq_rdy c) false mresp0 in
  let '(en, r) := match todo with
                  | r :: _ => if ch_send c && req_rdy p s i0 then (true, r) else (false, creq0)
                  | [] => (false, creq0) end in
  let '(ma, x) := match rs with
                  | x :: _ => if ch_answer c then (true, x) else (false, mresp0)
                  | [] => (false, mresp0) end in
  mkInp en r (ch_resp_rdy c) (ch_mreq_rdy c) ma x.

(** Drive the cache; memory executes requests as they arrive. *)
Fixpoint drive (p : params) (s : st) (m : mem) (rs : list mresp) (todo : list creq) (cs : list choice)
  : list inp * (mem * list mresp) :=
  match cs with
  | [] => ([], (m, rs))
  | c :: cs =>
      let i := inp_of p s rs todo c in
      let rs1 := if i_mresp_en i then tl rs else rs in
      let todo1 := if i_req_en i then tl todo else todo in
      let '(m2, rs2) := match o_mreq (output p s i) with
                        | Some q => let '(m2, x) := mem_exec p m q in (m2, rs1 ++ [x])
                        | None => (m, rs1) end in
      let '(is, e) := drive p (next p s i) m2 rs2 todo1 cs in (i :: is, e)
  end.

Lemma drive_gen : forall (P : creq -> Prop) p cs s m rs todo, Forall P todo ->
  let is := fst (drive p s m rs todo cs) in
  let e := snd (drive p s m rs todo cs) in
  Forall (fun io => i_req_en (fst io) = true -> o_req_rdy (snd io) = true /\ P (i_req (fst io))) (trace_of p s is) /\
  mem_trace p m [] rs (trace_of p s is) (fst e) [] (snd e).
Proof.
  intros P p. induction cs as [|c cs IH]; intros s m rs todo WF is e.
  - split; [constructor|constructor].
  - unfold is, e. cbn [drive]. set (i := inp_of p s rs todo c).
    set (rs1 := if i_mresp_en i then tl rs else rs).
    set (todo1 := if i_req_en i then tl todo else todo).
    set (o := output p s i).
    set (mm := match o_mreq o with Some q => let '(m2, x) := mem_exec p m q in (m2, rs1 ++ [x]) | None => (m, rs1) end).
    destruct mm as [m2 rs2] eqn:EM.
    assert (WF1 : Forall P todo1).
    { unfold todo1. destruct (i_req_en i); auto. destruct WF; cbn; auto. }
    specialize (IH (next p s i) m2 rs2 todo1 WF1).
    destruct (drive p (next p s i) m2 rs2 todo1 cs) as [is' [m' rs']]. cbn [fst snd] in *.
    destruct IH as [IH1 IH2]. rewrite trace_cons. fold o.
    assert (RI : i_req_en i = true -> o_req_rdy o = true /\ P (i_req i)).
    { assert (RD : o_req_rdy o = req_rdy p s (mkInp false creq0 (ch_resp_rdy c) (ch_mreq_rdy c) false mresp0)).
      { unfold o, output. cbn [o_req_rdy]. unfold req_rdy, stall01, mshr_full, alloc_en, stall01, ostall2, cs2.
        assert (I1 : i_resp_rdy i = ch_resp_rdy c /\ i_mreq_rdy i = ch_mreq_rdy c).
        { unfold i, inp_of. destruct todo, rs; try destruct (_ && _); try destruct (ch_answer c); auto. }
        destruct I1 as [-> ->]. reflexivity. }
      rewrite RD. unfold i, inp_of. destruct WF as [|r todo' W1 W2].
      - destruct rs; try destruct (ch_answer c); cbn; discriminate.
      - destruct (ch_send c); cbn [andb].
        + destruct (req_rdy p s _) eqn:E; destruct rs; try destruct (ch_answer c); cbn; intros H; try discriminate;
          split; auto.
        + destruct rs; try destruct (ch_answer c); cbn; discriminate. }
    split.
    + constructor; auto.
    + assert (MT : mem_trace p m (opt_list (o_mreq o)) rs1 (trace_of p (next p s i) is') m' [] rs').
      { unfold mm in EM. destruct (o_mreq o) as [q|]; cbn [opt_list].
        - apply mt_exec. destruct (mem_exec p m q) as [m3 x]. inversion EM; subst. auto.
        - inversion EM; subst. auto. }
      destruct (i_mresp_en i) eqn:ME.
      * assert (X : exists x l, rs = x :: l /\ i_mresp i = x).
        { unfold i, inp_of in ME |- *. destruct rs as [|x l].
          - destruct todo; try destruct (_ && _); discriminate.
          - exists x, l. split; auto. destruct (ch_answer c); destruct todo; try destruct (_ && _); auto; discriminate. }
        destruct X as (x & l & E1 & E2). unfold rs1 in MT. rewrite E1 in *. cbn [tl] in MT. eapply mt_answer; eauto.
      * apply mt_quiet; auto.
Qed.

Lemma drive_ok : forall p cs s m rs todo, Forall (wf_req p) todo ->
  let is := fst (drive p s m rs todo cs) in
  let e := snd (drive p s m rs todo cs) in
  client_ok p (trace_of p s is) /\ mem_trace p m [] rs (trace_of p s is) (fst e) [] (snd e).
Proof. intros. apply (drive_gen (wf_req p)). auto. Qed.

Lemma mk_reset_ok : forall p t d, reset_state p (mk_reset p t d).
Proof. intros. unfold reset_state, mk_reset. cbn. repeat split; auto. Qed.

Theorem drive_sys : forall p cs t d m todo, Forall (wf_req p) todo ->
  let s0 := mk_reset p t d in
  let e := snd (drive p s0 m [] todo cs) in
  sys_run p s0 (fst (drive p s0 m [] todo cs)) m (fst e) [] (snd e).
Proof.
  intros p cs t d m todo WF s0 e. destruct (drive_ok p cs s0 m [] todo WF). split; [apply mk_reset_ok | auto].
Qed.

(** Boolean version of [wf_req]. *)
Definition wf_reqb (p : params) (r : creq) : bool :=
  let n := req_bytes p r in
  (cq_addr r <? 2 ^ p_abw p) && (cq_len r <? 2 ^ lenw p) &&
  ( ((cq_type r =? T_READ) && ((n =? 1) || (n =? 2) || (n =? 4) || (n =? 8) || (n =? 16)) && (cq_addr r mod n =? 0))
 || ((cq_type r =? T_WRITE) && ((n =? 1) || (n =? 2) || (n =? 4) || ((cq_len r =? 3) && (p_dbw p =? 32))) && (cq_addr r mod n =? 0))
 || ((T_AMO_ADD <=? cq_type r) && (cq_type r <=? T_AMO_XOR) && (cq_addr r mod 4 =? 0) && ((p_dbw p =? 32) || (cq_len r =? 4)))
 || (cq_type r =? T_INV) || (cq_type r =? T_FLUSH)).

Lemma wf_reqb_ok : forall p r, wf_reqb p r = true -> wf_req p r.
Proof.
  intros p r H. unfold wf_reqb in H.
  repeat rewrite ?andb_true_iff, ?orb_true_iff, ?N.eqb_eq, ?N.ltb_lt, ?N.leb_le in H.
  unfold wf_req, wf_read, wf_write, wf_amo, pow2_size. tauto.
Qed.
Lemma wf_all : forall p l, forallb (wf_reqb p) l = true -> Forall (wf_req p) l.
Proof.
  intros p l H. apply Forall_forall. intros r I. apply wf_reqb_ok.
  rewrite forallb_forall in H. auto.
Qed.

(** Example configuration: 64-byte cache, 16-byte lines, 2 ways, 32-bit port,
    so 2 sets; 16-bit addresses.  And its 1-way variant, and a 64-bit port. *)
Definition px : params := mkParams 64 2 128 16 8 32.
Definition px1 : params := mkParams 64 1 128 16 8 32.
Definition px64 : params := mkParams 64 2 128 16 8 64.

Lemma px_wf : wf_params px.
Proof.
  constructor; cbn; auto; try lia.
  - exists 7. split; [reflexivity | lia].
  - exists 1. split; [lia | reflexivity].
Qed.
Lemma px1_wf : wf_params px1.
Proof.
  constructor; cbn; auto; try lia.
  - exists 7. split; [reflexivity | lia].
  - exists 2. split; [lia | reflexivity].
Qed.
Lemma px64_wf : wf_params px64.
Proof.
  constructor; cbn; auto; try lia.
  - exists 7. split; [reflexivity | lia].
  - exists 1. split; [lia | reflexivity].
Qed.

(** A program exercising every kind of request: sub-word accesses, hits, misses,
    dirty evictions, AMO on a dirty line, INV, FLUSH, len=3 write. *)
Definition rd (o a l : N) : creq := mkCReq T_READ o a l 0.
Definition wt (o a l d : N) : creq := mkCReq T_WRITE o a l d.
Definition prog_a : list creq :=
  [ wt 1 0x10 0 0xdeadbeef; rd 2 0x12 2; wt 3 0x11 1 0x77; rd 4 0x10 0; rd 5 0x30 0; rd 6 0x50 0;
    wt 7 0x70 2 0xabcd; rd 8 0x10 0; mkCReq T_AMO_ADD 9 0x10 0 5; rd 10 0x10 0; mkCReq T_INV 11 0 0 0;
    rd 12 0x70 0; wt 13 0x28 3 0x12345678; mkCReq T_FLUSH 14 0 0 0; rd 15 0x2c 0; mkCReq T_FLUSH 16 0 0 0 ].
(** [n] cycles of a lively environment with some stalls. *)
Fixpoint lively (n : nat) (k : nat) : list choice :=
  match n with
  | O => []
  | S n' => mkCh true (negb (Nat.eqb (Nat.modulo k 5) 2)) (negb (Nat.eqb (Nat.modulo k 7) 3)) (negb (Nat.eqb (Nat.modulo k 3) 1))
            :: lively n' (S k)
  end.
(** ... and without any stall. *)
Definition eager (n : nat) : list choice := repeat (mkCh true true true true) n.
(** Power-up garbage and an initial memory. *)
Definition junk_t (w k : N) : N := 0x1ff + w + k.
Definition junk_d (k : N) : N := 0xfeed + k.
Definition mem_a (a : N) : N := (a * 7 + 3) mod 256.
Definition s0_a (p : params) : st := mk_reset p junk_t junk_d.
Definition is_a (p : params) (prog : list creq) (cs : list choice) : list inp :=
  fst (drive p (s0_a p) mem_a [] prog cs).
Definition end_a (p : params) (prog : list creq) (cs : list choice) : mem * list mresp :=
  snd (drive p (s0_a p) mem_a [] prog cs).
Lemma run_a : forall p prog cs, Forall (wf_req p) prog ->
  sys_run p (s0_a p) (is_a p prog cs) mem_a (fst (end_a p prog cs)) [] (snd (end_a p prog cs)).
Proof. intros. apply drive_sys. auto. Qed.
Lemma prog_a_wf : Forall (wf_req px) prog_a. Proof. apply wf_all. reflexivity. Qed.
