(** Proofs about the line trace (C64). *)
From Coq Require Import NArith List Bool Lia String Ascii.
From Verif Require Import Bits Params Msg Units Rtl Line LineSpec.
Import ListNotations.
Open Scope string_scope.

Fixpoint noesc (s : string) : bool :=
  match s with EmptyString => true | String c r => negb (Ascii.eqb c "027") && noesc r end.
Lemma noesc_app : forall a b, noesc (a ++ b) = noesc a && noesc b.
Proof. induction a as [|c a IH]; intros b; cbn [append noesc]; auto. rewrite IH, andb_assoc. auto. Qed.
Lemma strip_app : forall a b, noesc a = true -> strip false (a ++ b) = a ++ strip false b.
Proof.
  induction a as [|c a IH]; intros b H; auto. cbn [noesc] in H. apply andb_true_iff in H. destruct H as [H1 H2].
  cbn [append strip]. apply negb_true_iff in H1. rewrite H1, IH; auto.
Qed.
Lemma app_nil_s : forall a, a ++ "" = a. Proof. induction a as [|c a IH]; cbn [append]; [auto | rewrite IH; auto]. Qed.
Lemma plain_noesc : forall a, noesc a = true -> plain a = a.
Proof. intros a H. unfold plain. rewrite <- (app_nil_s a) at 1. rewrite strip_app by auto. cbn. apply app_nil_s. Qed.
Lemma code_app : forall k a b, noesc a = true -> has_code k (a ++ b) = has_code k b.
Proof.
  induction a as [|c a IH]; intros b H; auto. cbn [noesc] in H. apply andb_true_iff in H. destruct H as [H1 H2].
  change (String c a ++ b) with (String c (a ++ b)). cbn [has_code]. rewrite IH by auto. apply negb_true_iff in H1.
  assert (E : String.prefix (String "027"%char ("[" ++ k ++ "m")) (String c (a ++ b)) = false).
  { cbn [String.prefix]. destruct (ascii_dec "027" c) as [E|E]; auto. subst. discriminate H1. }
  rewrite E. reflexivity.
Qed.
Lemma code_noesc : forall k a, noesc a = true -> has_code k a = false.
Proof. intros k a H. rewrite <- (app_nil_s a). rewrite code_app by auto. reflexivity. Qed.

(** the label without colours *)
Definition lab1 (s : st) : string :=
  match t1 s with
  | TR_REFILL => " rf" | TR_CLEAN_HIT => " wc" | TR_REPLAY_READ => "rpr" | TR_REPLAY_WRITE => "rpw"
  | TR_READ_REQ => " rd" | TR_WRITE_REQ => " wr"
  | TR_INIT_REQ => " in" | TR_CACHE_INIT => "ini" | TR_AMO_REQ => "amo" | TR_REPLAY_AMO => "rpa"
  | TR_INV_WRITE => "ivw" | TR_INV_START => "iv0" | TR_REPLAY_INV => "ivp"
  | TR_FLUSH_START => "fl0" | TR_FLUSH_READ => "flr" | TR_FLUSH_WAIT => "fl#" | TR_FLUSH_WRITE => "frw"
  | TR_REPLAY_FLUSH => "flp" | TR_INVALID => "   "
  end.
Definition ch (b : bool) (x : string) : string := if b then x else " ".

Section P.
Variable p : params.

Lemma m1_strip : forall s b, strip false (msg_M1 p s ++ b) = lab1 s ++ strip false b.
Proof. intros s b. unfold msg_M1, lab1. destruct (t1 s); try (apply strip_app; reflexivity); destruct (hit1 p s); reflexivity. Qed.

Definition head (s : st) (i : inp) : string :=
  ch (i_mresp_en i) ">" ++ "|" ++ ch (negb (req_rdy p s i)) "#" ++ msg_fsm (fsm s) ++ msg_t0 (trans0 p s i) ++ "|".
Definition tail (s : st) (i : inp) : string := "|" ++ msg_M2 s ++ "|" ++ ch (memreq_en s i) ">".

Lemma app_s : forall a b c : string, (a ++ b) ++ c = a ++ b ++ c.
Proof. induction a as [|x a IH]; intros; cbn [append]; [auto | rewrite IH; auto]. Qed.

Lemma line_eq : forall s i, line_trace p s i = head s i ++ msg_M1 p s ++ tail s i.
Proof.
  intros s i. unfold line_trace, head, tail, msg_M0, ch. rewrite !app_s.
  destruct (i_mresp_en i), (req_rdy p s i), (memreq_en s i); cbn [negb]; cbn [append]; rewrite ?app_s; reflexivity.
Qed.

Lemma noesc_head : forall s i, noesc (head s i) = true.
Proof.
  intros s i. unfold head, ch. rewrite !noesc_app.
  destruct (i_mresp_en i), (req_rdy p s i), (fsm s), (trans0 p s i); reflexivity.
Qed.
Lemma noesc_tail : forall s i, noesc (tail s i) = true.
Proof. intros s i. unfold tail, ch, msg_M2. destruct (t2 s), (ev2 s), (memreq_en s i); reflexivity. Qed.

Lemma plain_line : forall s i, plain (line_trace p s i) = head s i ++ lab1 s ++ tail s i.
Proof.
  intros s i. rewrite line_eq. unfold plain. rewrite strip_app by apply noesc_head. rewrite m1_strip.
  pose proof (plain_noesc _ (noesc_tail s i)) as E. unfold plain in E. rewrite E. auto.
Qed.

Lemma str1 : forall a, String.length a = 1%nat -> exists x, a = String x "".
Proof. intros [|x [|y a]] H; try discriminate; eauto. Qed.
Lemma str3 : forall a, String.length a = 3%nat -> exists x y z, a = String x (String y (String z "")).
Proof. intros [|x [|y [|z [|w a]]]] H; try discriminate; eauto. Qed.
Lemma str6 : forall a, String.length a = 6%nat ->
  exists x y z u v w, a = String x (String y (String z (String u (String v (String w ""))))).
Proof. intros [|x [|y [|z [|u [|v [|w [|k a]]]]]]] H; try discriminate. do 6 eexists. reflexivity. Qed.

Lemma columns : forall s i, let l := line_trace p s i in
  String.length (plain l) = 22%nat /\ bars l = ["|"; "|"; "|"; "|"] /\
  c_memresp l = ch (i_mresp_en i) ">" /\ c_busy l = ch (negb (req_rdy p s i)) "#" /\ c_state l = msg_fsm (fsm s) /\
  c_M0 l = msg_t0 (trans0 p s i) /\ c_M1 l = lab1 s /\ c_M2 l = msg_M2 s /\ c_memreq l = ch (memreq_en s i) ">".
Proof.
  intros s i l. unfold bars, c_memresp, c_busy, c_state, c_M0, c_M1, c_M2, c_memreq, col, l. rewrite plain_line. unfold head, tail.
  assert (A : exists x, ch (i_mresp_en i) ">" = String x "") by (apply str1; destruct (i_mresp_en i); auto).
  assert (B : exists x, ch (negb (req_rdy p s i)) "#" = String x "") by (apply str1; destruct (req_rdy p s i); auto).
  assert (C : exists x, ch (memreq_en s i) ">" = String x "") by (apply str1; destruct (memreq_en s i); auto).
  assert (D : String.length (msg_fsm (fsm s)) = 6%nat) by (destruct (fsm s); auto). apply str6 in D.
  assert (E : String.length (msg_t0 (trans0 p s i)) = 3%nat) by (destruct (trans0 p s i); auto). apply str3 in E.
  assert (F : String.length (lab1 s) = 3%nat) by (unfold lab1; destruct (t1 s); auto). apply str3 in F.
  assert (G : String.length (msg_M2 s) = 3%nat) by (unfold msg_M2; destruct (t2 s), (ev2 s); auto). apply str3 in G.
  destruct A as (? & ->), B as (? & ->), C as (? & ->), D as (? & ? & ? & ? & ? & ? & ->), E as (? & ? & ? & ->), F as (? & ? & ? & ->), G as (? & ? & ? & ->).
  cbn. repeat split.
Qed.

Lemma code_line : forall k s i, has_code k (line_trace p s i) = has_code k (msg_M1 p s ++ tail s i).
Proof. intros. rewrite line_eq. apply code_app. apply noesc_head. Qed.

Definition rwt (t : trans) : bool := match t with TR_READ_REQ | TR_WRITE_REQ => true | _ => false end.
Lemma green_eq : forall s i, green (line_trace p s i) = rwt (t1 s) && hit1 p s.
Proof.
  intros s i. unfold green. rewrite code_line. unfold msg_M1.
  pose proof (code_noesc "32" _ (noesc_tail s i)) as N.
  destruct (t1 s); cbn [rwt andb]; try (rewrite code_app by reflexivity; exact N); destruct (hit1 p s); try reflexivity.
  - cbn [esc append has_code String.prefix]. cbn. exact N.
  - cbn. exact N.
Qed.
Lemma red_eq : forall s i, red (line_trace p s i) = rwt (t1 s) && negb (hit1 p s).
Proof.
  intros s i. unfold red. rewrite code_line. unfold msg_M1.
  pose proof (code_noesc "31" _ (noesc_tail s i)) as N.
  destruct (t1 s); cbn [rwt andb]; try (rewrite code_app by reflexivity; exact N); destruct (hit1 p s); try reflexivity; cbn; exact N.
Qed.

(** *** Ports: any state *)
Lemma line_ports : forall s i, let l := line_trace p s i in let o := output p s i in
  String.length (plain l) = 22%nat /\ bars l = ["|"; "|"; "|"; "|"] /\
  (c_memresp l = ">" <-> i_mresp_en i = true) /\ (c_busy l = "#" <-> o_req_rdy o = false) /\
  (c_memreq l = ">" <-> o_mreq o <> None).
Proof.
  intros s i l o. destruct (columns s i) as (A & B & C & D & _ & _ & _ & _ & E). fold l in A, B, C, D, E.
  split; auto. split; auto. rewrite C, D, E. unfold o, ch. cbn [output o_req_rdy o_mreq].
  destruct (i_mresp_en i), (req_rdy p s i), (memreq_en s i); cbn [negb]; repeat split; try discriminate; try congruence; intros H; try (exfalso; apply H; reflexivity).
Qed.

(** *** Labels and types *)
Definition lab_ok (t : trans) (ty : N) : Prop :=
  match t with
  | TR_READ_REQ | TR_REPLAY_READ => ty = T_READ
  | TR_WRITE_REQ | TR_REPLAY_WRITE => ty = T_WRITE
  | TR_INIT_REQ => ty = T_INIT
  | TR_AMO_REQ | TR_REPLAY_AMO => is_amo ty = true
  | TR_INV_START | TR_REPLAY_INV => ty = T_INV
  | TR_FLUSH_START | TR_REPLAY_FLUSH => ty = T_FLUSH
  | _ => True
  end.

Lemma lab0 : forall s i, lab_ok (trans0 p s i) (cq_type (q0 p s i)).
Proof.
  intros s i. cbn [q0 cq_type]. unfold trans0.
  destruct (fsm s) eqn:F; [exact I| | | | |]; destruct (write_hit_clean p s); try exact I.
  - unfold req_type0, req_mux0, mux_sel0. rewrite F. cbn [fsm_eqb orb].
    destruct (mr_val s && negb (mshr_empty s)) eqn:V.
    + apply andb_true_iff in V. destruct V as [V _]. unfold mr_val in V. apply andb_true_iff in V. destruct V as [-> _].
      destruct (N.eqb (mshr_type s) T_WRITE || N.eqb (mshr_type s) T_READ)%bool; [exact I|].
      destruct (is_amo (mshr_type s)) eqn:AM; [exact AM | exact I].
    + destruct (mshr_empty s && i_req_en i); [|exact I].
      set (t := cq_type _).
      destruct (N.eqb_spec t T_INIT); [auto|]. destruct (N.eqb_spec t T_READ); [auto|]. destruct (N.eqb_spec t T_WRITE); [auto|].
      destruct (is_amo t) eqn:AM; [auto|]. destruct (N.eqb_spec t T_INV); [auto|]. destruct (N.eqb_spec t T_FLUSH); [auto|]. exact I.
  - unfold req_mux0, mux_sel0. rewrite F. cbn [fsm_eqb orb]. unfold mshr_type.
    destruct (negb (mshr_empty s)); cbn [andb]; [|exact I].
    destruct (N.eqb_spec (cq_type (ms_req (msr s))) T_WRITE); [auto|]. destruct (N.eqb_spec (cq_type (ms_req (msr s))) T_READ); [auto|].
    destruct (N.eqb_spec (cq_type (ms_req (msr s))) T_INV); [auto|]. destruct (N.eqb_spec (cq_type (ms_req (msr s))) T_FLUSH); [|exact I].
    destruct (prev_flush_done p s); [auto | exact I].
  - destruct (has_flush_sent1 p s); exact I.
  - destruct (mr_ack s); exact I.
Qed.

Record labelled (s : st) : Prop := {
  lb1 : lab_ok (t1 s) (cq_type (q1 s));
  lb2 : lab_ok (t2 s) (cq_type (q2 s));
  lb_ev : ev2 s = true -> t2 s = TR_READ_REQ \/ t2 s = TR_WRITE_REQ \/ t2 s = TR_INIT_REQ \/ t2 s = TR_AMO_REQ;
  lb_hit : hit2 s = true -> t2 s = TR_READ_REQ \/ t2 s = TR_WRITE_REQ \/ t2 s = TR_AMO_REQ
}.

Lemma ev_label : forall s, is_evict1 p s = true -> t1 s = TR_READ_REQ \/ t1 s = TR_WRITE_REQ \/ t1 s = TR_INIT_REQ \/ t1 s = TR_AMO_REQ.
Proof. intros s. unfold is_evict1, is_rwi1, is_amo1. destruct (t1 s); cbn; try discriminate; tauto. Qed.
Lemma hit_label : forall s, hit1 p s = true -> t1 s = TR_READ_REQ \/ t1 s = TR_WRITE_REQ \/ t1 s = TR_AMO_REQ.
Proof.
  intros s. unfold hit1, is_rwi1, is_amo1, pu_hit, pu, is_init1. destruct (t1 s); cbn [trans_eqb orb]; try discriminate; try tauto.
Qed.

Lemma labelled_next : forall s i, labelled s -> labelled (next p s i).
Proof.
  intros s i [L1 L2 LE LH].
  assert (Q2 : t2 (next p s i) = t1 s /\ ev2 (next p s i) = is_evict1 p s /\ hit2 (next p s i) = hit1 p s \/
               t2 (next p s i) = t2 s /\ ev2 (next p s i) = ev2 s /\ hit2 (next p s i) = hit2 s).
  { cbn [next t2 ev2 hit2]. destruct (creg_en2 s i); auto. }
  constructor.
  - cbn [next t1 q1]. unfold creg_en1. destruct (reg_en1 p s i); cbn [orb]; [apply lab0|].
    unfold is_cinit0. destruct (trans0 p s i) eqn:T; cbn [trans_eqb]; first [exact L1 | exact I].
  - cbn [next t2 q2]. unfold creg_en2. destruct (reg_en2 s i); cbn [orb]; [exact L1|].
    unfold is_cinit1. destruct (t1 s) eqn:T; cbn [trans_eqb]; first [exact L2 | exact I].
  - destruct Q2 as [(-> & -> & _) | (-> & -> & _)]; auto. apply ev_label.
  - destruct Q2 as [(-> & _ & ->) | (-> & _ & ->)]; auto. apply hit_label.
Qed.

Lemma labelled_run : forall is s, labelled s -> labelled (fst (run p s is)).
Proof.
  induction is as [|i is IH]; intros s L; auto. cbn [run step].
  pose proof (IH _ (labelled_next s i L)) as X. destruct (run p (next p s i) is) as [s2 os]. exact X.
Qed.
Lemma labelled_reset : forall s, reset_state p s -> labelled s.
Proof.
  intros s (_ & _ & _ & _ & _ & _ & T1 & _ & _ & _ & _ & _ & _ & _ & T2 & E & H & _).
  constructor; rewrite ?T1, ?T2, ?E, ?H; try exact I; discriminate.
Qed.

Lemma line_m2 : forall s i, labelled s -> let l := line_trace p s i in let o := output p s i in
  (forall y, o_resp o = Some y -> In (c_M2 l) (done_labels (cr_type y)) /\ c_memreq l = " " /\
     (cr_test y = 1%N <-> In (c_M2 l) [" rd"; " wr"])) /\
  (forall q, o_mreq o = Some q -> In (c_M2 l) (send_labels (mq_type q))) /\
  (i_resp_rdy i = true -> i_mreq_rdy i = true -> In (c_M2 l) answering -> c_memreq l = " " -> o_resp o <> None).
Proof.
  intros s i [L1 L2 LE LH] l o. destruct (columns s i) as (_ & _ & _ & _ & _ & _ & _ & M2 & MR). fold l in M2, MR.
  rewrite M2, MR. unfold o. cbn [output o_resp o_mreq]. unfold resp_en, memreq_en, cs2, resp_out, memreq_out, memreq_type, cs2_mtype, msg_M2. cbn [cr_type cr_test mq_type].
  unfold cs2.
  destruct (i_mreq_rdy i), (i_resp_rdy i); cbn [negb orb].
  2-4: destruct (t2 s), (ev2 s); cbn [fst snd ch]; (split; [intros y Y; discriminate Y|]); (split; [intros q Y; discriminate Y|]); intros; discriminate.
  destruct (t2 s) eqn:T2; cbn [lab_ok] in L2; destruct (ev2 s) eqn:EV; destruct (hit2 s) eqn:HT; destruct (fs2 s);
    try (destruct (LE eq_refl) as [X|[X|[X|X]]]; discriminate X); try (destruct (LH eq_refl) as [X|[X|X]]; discriminate X);
    cbn [fst snd ch b2n];
    (split; [intros y Y; try discriminate Y; injection Y as <-; cbn [cr_type cr_test]; try rewrite L2; cbn | split; [intros q Y; try discriminate Y; injection Y as <-; cbn [mq_type]; try rewrite L2; cbn |]]).
  all: try (intros; first [discriminate | match goal with H : In _ answering |- _ => cbn in H end]; repeat match goal with H : _ \/ _ |- _ => destruct H end; try discriminate; contradiction).
  all: try (split; [tauto|split; [auto|]]; split; intros; try discriminate; auto; repeat match goal with H : _ \/ _ |- _ => destruct H end; try discriminate; contradiction).
  all: try (first [left; reflexivity | right; left; reflexivity]).
  all: assert (AX : forall t, is_amo t = true -> N.eqb t T_READ = false /\ N.eqb t T_WRITE = false /\ N.eqb t T_INIT = false /\ N.eqb t T_INV = false /\ N.eqb t T_FLUSH = false)
    by (intros t AM; repeat split; apply N.eqb_neq; intros ->; discriminate AM);
    destruct (AX _ L2) as (A1 & A2 & A3 & A4 & A5); unfold send_labels, done_labels; rewrite ?A1, ?A2, ?A3, ?A4, ?A5;
    first [left; reflexivity | split; [left; reflexivity | split; [reflexivity | split; [discriminate | intros [X|[X|[]]]; discriminate X]]]].
Qed.
End P.
