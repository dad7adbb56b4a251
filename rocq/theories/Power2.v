(** C66: what the arrays contain at power-up never shows. *)
From Coq Require Import Arith NArith List Bool Lia.
From Verif Require Import Bits Params Msg Units Rtl Mem Spec System Traffic Hide Tl ParamsProofs SramJunk Obliv ViewDefs SysProofs SysFacts Facts1 Facts2 Facts3 Proto
  Power PowerSpec.
Import ListNotations.
Open Scope N_scope.

Lemma nth_error_combine : forall (A B : Type) n (l : list A) (l' : list B) a b, nth_error (combine l l') n = Some (a, b) -> nth_error l n = Some a /\ nth_error l' n = Some b.
Proof. induction n; intros [|x l] [|y l'] a b H; cbn in *; try discriminate; auto. inversion H; auto. Qed.
Lemma combine_nth_error : forall (A B : Type) n (l : list A) (l' : list B) a b, nth_error l n = Some a -> nth_error l' n = Some b -> nth_error (combine l l') n = Some (a, b).
Proof. induction n; intros [|x l] [|y l'] a b H H'; cbn in *; try discriminate; auto. congruence. Qed.
Lemma not_amo_fun : forall t, is_amo t = false -> forall x y, amo_fun t x y = x.
Proof.
  intros t H x y. unfold amo_fun.
  repeat match goal with |- context [t =? ?c] => destruct (N.eqb_spec t c); [subst t; discriminate H|] end. auto.
Qed.
Lemma app_split2 : forall (A : Type) (a b c d : list A), a ++ c = b ++ d -> length a = length b -> a = b /\ c = d.
Proof. induction a; intros [|y b] c d H L; try discriminate; auto. cbn in H. inversion H. destruct (IHa b c d); auto. subst. auto. Qed.
Lemma resp_len : forall is (O O' : list outp), length O = length is -> map hide_out O' = map hide_out O ->
  length (responses (combine is O')) = length (responses (combine is O)) /\
  map hide_cresp (responses (combine is O')) = map hide_cresp (responses (combine is O)).
Proof.
  induction is as [|i is IH]; intros [|o O] [|o' O'] L E; try discriminate; auto.
  cbn [map] in E. inversion E as [[E1 E2 E3 E4]]. destruct (IH O O') as [I1 I2]; auto. unfold responses in *. cbn [combine flat_map snd].
  rewrite !app_length, !map_app, I1, I2. destruct (o_resp o), (o_resp o'); try discriminate E2; auto. cbn [option_map] in E2. inversion E2 as [[X1 X2 X3 X4]].
  cbn [opt_list map length]. unfold hide_cresp. rewrite X1, X2, X3, X4. auto.
Qed.

Section Q.
Variable p : params.
Hypothesis W : wf_params p.

(** [run] is [run_j] with the outputs held. *)
Fixpoint held (s : st) (is : list inp) : list (inp * junk) :=
  match is with [] => [] | i :: is => (i, mkJunk (tdout s) (ddout s)) :: held (next p s i) is end.
Lemma held_fst : forall is s, map fst (held s is) = is.
Proof. induction is; intros; cbn; f_equal; auto. Qed.
Lemma held_run : forall is s, run_j p s (held s is) = run p s is.
Proof.
  induction is as [|i is IH]; intros; auto. cbn [held run_j run step].
  change (next_j p s i (mkJunk (tdout s) (ddout s))) with (next p s i). rewrite IH. auto.
Qed.

Theorem power_control : forall s0 s0' is, reset_state p s0 -> reset_state p s0' -> physical p s0 -> physical p s0' ->
  map hide_out (snd (run p s0' is)) = map hide_out (snd (run p s0 is)).
Proof.
  intros s0 s0' is R R' F F'.
  pose (sA := re s0 (tram s0) (tdout s0') (tsr s0') (hsr s0') (ddout s0') (dsr s0')).
  assert (A : snd (run p sA is) = snd (run p s0 is)).
  { rewrite <- (held_run is sA). unfold sA. rewrite (run_j_agree p _ s0).
    - rewrite held_fst. auto.
    - destruct (reset_agree p s0 W R). constructor; auto.
      + intros T. destruct R as (_ & _ & _ & _ & _ & _ & T1 & _). rewrite T1 in T. discriminate T.
      + intros T. destruct R as (_ & _ & _ & _ & _ & _ & T1 & _). rewrite T1 in T. discriminate T.
      + intros _ T. destruct R as (_ & _ & _ & _ & _ & _ & T1 & _). rewrite T1 in T. discriminate T.
      + intros T. unfold reset_state in R. decompose [and] R. replace (t2 s0) with TR_INVALID in T by auto. discriminate T. }
  rewrite <- A. apply (power_run p). 2:{ auto. }
  unfold reset_state in R, R'. decompose [and] R. decompose [and] R'.
  constructor; cbn [sA re fsm ctr mrv mrm msn msr t1 wp1 utw1 q1 fi1 dm1 rep tram tdout tsr hsr wst t2 ev2 hit2 fs2 q2 wm2]; try congruence; auto.
  - intros w k. destruct (F w k) as [B Z]. destruct (F' w k) as [B' Z'].
    destruct (N.lt_ge_cases w (p_assoc p)) as [LW | GW]; [|left; rewrite Z, Z'; auto].
    destruct (N.lt_ge_cases k (nblocks p)) as [LK | GK]; [|left; rewrite Z, Z'; auto].
    right. pose proof (lnum_lt p W w k LW LK) as LN. pose proof (total_ge2 p W).
    split; auto. split; [rewrite <- (total_pow p W); replace (ctr s0) with (total_lines p - 1); lia|]. split; auto. split; auto.
    exists (lnum p w k). split; [replace (ctr s0) with (total_lines p - 1); lia|]. rewrite lway_lnum, lidx_lnum; auto.
Qed.

(** *** Data *)
(** The data of a memory request is determined by the program. *)
Lemma sent_data : forall P L m r g q, req_traffic p P L m r g -> In q g ->
  (mq_type q = T_WRITE -> forall o, o < p_clw p / 8 -> N.testbit (mq_mask q) (o / 4) = true ->
     slice (mq_data q) (8 * o) (8 * o + 8) = trunc 8 (m (mq_addr q + o))) /\
  (is_amo (mq_type q) = true -> mq_data q = trunc (p_dbw p) (cq_data r)).
Proof.
  intros P L m r g q T IN.
  assert (WB : forall wb P, wbs_ok p P m wb -> In q wb -> mq_type q = T_WRITE /\ forall o, o < p_clw p / 8 -> N.testbit (mq_mask q) (o / 4) = true ->
     slice (mq_data q) (8 * o) (8 * o + 8) = trunc 8 (m (mq_addr q + o))).
  { clear. induction wb as [|b wb IH]; intros P H I; [destruct I|]. destruct H as [H1 H2]. destruct I as [-> | I]; [|eapply IH; eauto].
    split; [apply (wb_type _ _ _ _ H1) | apply (wb_data _ _ _ _ H1)]. }
  assert (WA : forall wb P, wbs_ok p P m wb -> In q wb ->
     (mq_type q = T_WRITE -> forall o, o < p_clw p / 8 -> N.testbit (mq_mask q) (o / 4) = true ->
     slice (mq_data q) (8 * o) (8 * o + 8) = trunc 8 (m (mq_addr q + o))) /\
     (is_amo (mq_type q) = true -> mq_data q = trunc (p_dbw p) (cq_data r))).
  { intros wb P1 H I. destruct (WB wb P1 H I) as [E D]. split; auto. rewrite E. intros X. discriminate X. }
  unfold req_traffic in T. destruct (rw_req r).
  - destruct (in_dec N.eq_dec (line_of p (cq_addr r)) (L (line_of p (cq_addr r) mod nblocks p))); [subst g; destruct IN|].
    destruct T as (wb & b & -> & H & _ & _ & TY & _). apply in_app_or in IN. destruct IN as [IN | [<- | []]]; [eapply WA; eauto|].
    rewrite TY. split; intros X; discriminate X.
  - destruct (is_amo (cq_type r)) eqn:AM.
    + destruct T as (wb & b & -> & H & _ & _ & _ & TY & _ & _ & _ & DA). apply in_app_or in IN. destruct IN as [IN | [<- | []]]; [eapply WA; eauto|].
      rewrite TY. split; auto. intros X. rewrite X in AM. discriminate AM.
    + destruct (cq_type r =? T_FLUSH); [|subst g; destruct IN]. destruct T as [T _]. eapply WA; eauto.
Qed.

Lemma traffic_last : forall A G P L m r g, length A = length G -> traffic p P L m (A ++ [r]) (G ++ [g]) ->
  exists P' L', req_traffic p P' L' (flat_mem p m A) r g.
Proof.
  induction A as [|a A IH]; intros [|h G] P L m r g LN T; try discriminate LN.
  - destruct T as [T _]. exists P, L. exact T.
  - cbn [app traffic] in T. destruct T as [_ T]. destruct (IH _ _ _ _ _ _ (eq_add_S _ _ LN) T) as (P' & L' & H). exists P', L'. exact H.
Qed.

(** Memory contents and requests that mean the same. *)
Definition meq (m m' : mem) : Prop := forall a, m' a = m a.

Lemma exec_same : forall m m' q q', meq m m' -> same_mreq p q q' ->
  meq (fst (mem_exec p m q)) (fst (mem_exec p m' q')) /\ snd (mem_exec p m' q') = snd (mem_exec p m q).
Proof.
  intros m m' q q' M [H D A]. unfold hide_mreq in H. inversion H as [[H1 H2 H3 H4 H5]].
  assert (RD : forall n a, rd_bytes m' a n = rd_bytes m a n) by (intros; apply rd_ext; intros; rewrite M; auto).
  unfold mem_exec. rewrite H1, H2, H3, H4, H5.
  destruct (N.eqb_spec (mq_type q) T_READ) as [E | NR]; [rewrite RD; split; auto|].
  destruct (N.eqb_spec (mq_type q) T_WRITE) as [E | NW]; cbn [fst snd].
  - split; auto. intros a. rewrite !wr_masked_spec.
    destruct ((mq_addr q <=? a) && (a <? mq_addr q + 4 * (p_clw p / 32)) && N.testbit (mq_mask q) ((a - mq_addr q) / 4)) eqn:B; [|apply M].
    apply andb_prop in B. destruct B as [B T]. apply andb_prop in B. destruct B as [B1 B2].
    apply N.leb_le in B1. apply N.ltb_lt in B2. apply D; auto.
    rewrite (clw_dty p W) in *. replace (32 * dtyw p) with (dtyw p * 32) in B2 by lia. rewrite N.div_mul in B2 by lia.
    replace (32 * dtyw p) with (4 * dtyw p * 8) by lia. rewrite N.div_mul by lia. lia.
  - rewrite RD.
    destruct (is_amo (mq_type q)) eqn:AM.
    + rewrite (A eq_refl). split; auto. intros a. unfold wr_bytes. destruct (_ && _); auto.
    + assert (X : forall x y, amo_fun (mq_type q) x y = x) by (apply not_amo_fun; auto).
      rewrite !X. split; auto. intros a. unfold wr_bytes. destruct (_ && _); auto.
Qed.

(** The memory does the same with requests that mean the same. *)
Definition io_same (x x' : inp * outp) : Prop := fst x' = fst x /\ same_omreq p (o_mreq (snd x)) (o_mreq (snd x')).
Lemma opt_same : forall o o', same_omreq p o o' -> Forall2 (same_mreq p) (opt_list o) (opt_list o').
Proof. intros [q|] [q'|] H; cbn in *; try contradiction; auto. Qed.

Lemma mem_same : forall m rq rs tr m2 rq2 rs2, mem_trace p m rq rs tr m2 rq2 rs2 ->
  forall m' rq' tr', meq m m' -> Forall2 (same_mreq p) rq rq' -> Forall2 io_same tr tr' ->
  exists m2' rq2', mem_trace p m' rq' rs tr' m2' rq2' rs2 /\ meq m2 m2' /\ Forall2 (same_mreq p) rq2 rq2'.
Proof.
  induction 1 as [m rq rs | m q rq rs tr m2 rq2 rs2 MT IH | m rq rs i o tr m2 rq2 rs2 NE MT IH | m rq x rs i o tr m2 rq2 rs2 NE EX MT IH];
    intros m' rq' tr' M Q T.
  - inversion T; subst. exists m', rq'. split; [constructor|auto].
  - inversion Q as [|? q' ? l' SQ SL]; subst. destruct (exec_same _ _ _ _ M SQ) as [E1 E2].
    destruct (IH _ _ _ E1 SL T) as (m2' & rq2' & A & B). exists m2', rq2'. split; auto. constructor. rewrite E2. auto.
  - inversion T as [|? [i' o'] ? tt SO ST]; subst. destruct SO as [E1 E2]. cbn [fst snd] in *. subst i'.
    destruct (IH m' (rq' ++ opt_list (o_mreq o')) tt M) as (m2' & rq2' & A & B); auto.
    { apply Forall2_app; auto. apply opt_same; auto. }
    exists m2', rq2'. split; auto. constructor; auto.
  - inversion T as [|? [i' o'] ? tt SO ST]; subst. destruct SO as [E1 E2]. cbn [fst snd] in *. subst i'.
    destruct (IH m' (rq' ++ opt_list (o_mreq o')) tt M) as (m2' & rq2' & A & B); auto.
    { apply Forall2_app; auto. apply opt_same; auto. }
    exists m2', rq2'. split; auto. eapply mt_answer; eauto.
Qed.

(** One cycle whatever is sent in it. *)
Lemma mem_one : forall m rq rs i o m2 rq2 rs2, mem_trace p m rq rs [(i, o)] m2 rq2 rs2 ->
  forall m' rq' o', meq m m' -> Forall2 (same_mreq p) rq rq' ->
  exists m2' rq2' rs2', mem_trace p m' rq' rs [(i, o')] m2' rq2' rs2'.
Proof.
  intros m rq rs i o m2 rq2 rs2 H. remember [(i, o)] as tr eqn:ET. revert ET.
  induction H as [m rq rs | m q rq rs tr m2 rq2 rs2 MT IH | m rq rs i1 o1 tr m2 rq2 rs2 NE MT IH | m rq x rs i1 o1 tr m2 rq2 rs2 NE EX MT IH];
    intros ET m' rq' o' M Q.
  - discriminate ET.
  - inversion Q as [|? q' ? l' SQ SL]; subst. destruct (exec_same _ _ _ _ M SQ) as [E1 E2].
    destruct (IH eq_refl _ _ o' E1 SL) as (m2' & rq2' & rs2' & A). exists m2', rq2', rs2'. constructor. rewrite E2. auto.
  - inversion ET; subst. do 3 eexists. apply mt_quiet; auto. constructor.
  - inversion ET; subst. do 3 eexists. eapply mt_answer; auto. constructor.
Qed.

Lemma accepted_same : forall tr tr', Forall2 io_same tr tr' -> accepted tr' = accepted tr.
Proof. induction 1 as [|x x' tr tr' [E _] F IH]; auto. unfold accepted in *. cbn [flat_map]. rewrite E, IH. auto. Qed.

Theorem power_data : forall is s0 s0' m0 m rq rs, reset_state p s0' -> physical p s0 -> physical p s0' -> sys_run p s0 is m0 m rq rs ->
  Forall2 io_same (trace_of p s0 is) (trace_of p s0' is).
Proof.
  induction is as [|i is IH] using rev_ind; intros s0 s0' m0 m rq rs R' F F' S; [constructor|].
  destruct (sys_app p _ _ _ _ _ _ _ S) as (m1 & rq1 & rs1 & S1 & M1 & C1).
  pose proof (IH s0 s0' m0 _ _ _ R' F F' S1) as I0.
  pose proof (power_control s0 s0' (is ++ [i]) (proj1 S) R' F F') as PC.
  destruct S1 as (R & CO & MT).
  destruct (mem_same _ _ _ _ _ _ _ MT m0 [] (trace_of p s0' is)) as (m1' & rq1' & MT' & ME & RQ); auto.
  { intros a. auto. }
  rewrite !trace_snoc. apply Forall2_app; auto. constructor; [|constructor]. split; auto. cbn [snd].
  rewrite trace_one in M1.
  destruct (mem_one _ _ _ _ _ _ _ _ M1 m1' rq1' (output p (fst (run p s0' is)) i) ME RQ) as (m2' & rq2' & rs2' & MO).
  assert (CT : client_ok p (trace_of p s0' (is ++ [i]))).
  { destruct S as (_ & CO' & _). clear - CO' PC. unfold client_ok in *. rewrite Forall_forall in *. intros [j o] IN E. cbn [fst snd] in *.
    unfold trace_of in IN, CO'. apply In_nth_error in IN. destruct IN as (n & IN). apply nth_error_combine in IN. destruct IN as [N1 N2].
    apply (f_equal (fun l => nth_error l n)) in PC. rewrite !nth_error_map, N2 in PC. cbn [option_map] in PC.
    destruct (nth_error (snd (run p s0 (is ++ [i]))) n) as [o2|] eqn:N3; [|discriminate PC]. inversion PC as [[P1 P2 P3]].
    destruct (CO' (j, o2)) as [X Y].
    - eapply nth_error_In. apply combine_nth_error; eauto.
    - auto.
    - cbn [snd fst] in *. split; auto. congruence. }
  assert (S' : sys_run p s0' (is ++ [i]) m0 m2' rq2' rs2').
  { split; auto. split; auto. rewrite trace_snoc. eapply mem_trace_join; eauto. }
  (* what is sent *)
  assert (HO : hide_out (output p (fst (run p s0' is)) i) = hide_out (output p (fst (run p s0 is)) i)).
  { pose proof PC as PC2. rewrite !run_app in PC2. cbn [run step] in PC2. destruct (run p s0 is) as [u os] eqn:E1. destruct (run p s0' is) as [u' os'] eqn:E2.
    cbn [fst snd] in *. rewrite !map_app in PC2. apply app_inj_tail in PC2. apply PC2. }
  assert (AC : accepted (trace_of p s0' is) = accepted (trace_of p s0 is)) by (apply accepted_same; auto).
  assert (RL : length (responses (trace_of p s0' is)) = length (responses (trace_of p s0 is))).
  { pose proof (power_control s0 s0' is R R' F F') as PC1. apply (proj1 (resp_len is _ _ (run_length p is s0) PC1)). }
  destruct (o_mreq (output p (fst (run p s0 is)) i)) as [q|] eqn:OQ, (o_mreq (output p (fst (run p s0' is)) i)) as [q'|] eqn:OQ';
    try (apply (f_equal o_mreq) in HO; unfold hide_out in HO; cbn [o_mreq] in HO; rewrite OQ, OQ' in HO; discriminate HO); cbn [same_omreq]; auto.
  destruct (sys_sent p W _ _ _ _ _ _ _ _ S OQ) as (A & r & G & g & EA & LA & LG & TR & IN).
  destruct (sys_sent p W _ _ _ _ _ _ _ _ S' OQ') as (A' & r' & G' & g' & EA' & LA' & LG' & TR' & IN').
  rewrite AC, EA in EA'. apply app_inj_tail in EA'. destruct EA' as [<- <-].
  destruct (traffic_last _ _ _ _ _ _ _ LG TR) as (P1 & L1 & T1). destruct (traffic_last _ _ _ _ _ _ _ LG' TR') as (P2 & L2 & T2).
  destruct (sent_data _ _ _ _ _ _ T1 IN) as [D1 D2]. destruct (sent_data _ _ _ _ _ _ T2 IN') as [D1' D2'].
  assert (HQ : hide_mreq q' = hide_mreq q).
  { apply (f_equal o_mreq) in HO. unfold hide_out in HO. cbn [o_mreq] in HO. rewrite OQ, OQ' in HO. inversion HO as [[H1 H2 H3 H4 H5]]. unfold hide_mreq. congruence. }
  pose proof HQ as HQ0. unfold hide_mreq in HQ0. inversion HQ0 as [[H1 H2 H3 H4 H5]].
  constructor; auto.
  - intros T o O B. rewrite D1 by auto. rewrite D1'; [rewrite H3; auto | congruence | auto | congruence].
  - intros T. rewrite D2 by auto. rewrite D2'; congruence.
Qed.

Lemma resps_cycle : forall is (O O' : list outp), length O = length is -> map hide_out O' = map hide_out O ->
  responses (combine is O') = responses (combine is O) -> Forall2 (fun o o' => o_req_rdy o' = o_req_rdy o /\ o_resp o' = o_resp o) O O'.
Proof.
  induction is as [|i is IH]; intros [|o O] [|o' O'] L E R; try discriminate; auto.
  cbn [map] in E. inversion E as [[E1 E2 E3 E4]]. unfold responses in R. cbn [combine flat_map snd] in R.
  destruct (o_resp o) as [y|] eqn:Y, (o_resp o') as [y'|] eqn:Y'; try discriminate E2; cbn [opt_list app] in R.
  - inversion R. constructor; [split; congruence|]. apply IH; auto.
  - constructor; [split; congruence|]. apply IH; auto.
Qed.

Theorem power_up : forall is s0 s0' m0 m rq rs, reset_state p s0' -> physical p s0 -> physical p s0' -> sys_run p s0 is m0 m rq rs ->
  (exists m' rq', sys_run p s0' is m0 m' rq' rs /\ (forall a, m' a = m a) /\ Forall2 (same_mreq p) rq rq') /\
  Forall2 (same_out p) (map snd (trace_of p s0 is)) (map snd (trace_of p s0' is)).
Proof.
  intros is s0 s0' m0 m rq rs R' F F' S. pose proof (power_data is s0 s0' m0 m rq rs R' F F' S) as D.
  pose proof (power_control s0 s0' is (proj1 S) R' F F') as PC.
  destruct S as (R & CO & MT). 
  destruct (mem_same _ _ _ _ _ _ _ MT m0 [] (trace_of p s0' is)) as (m' & rq' & MT' & ME & RQ); auto.
  { intros a. auto. }
  assert (CT : client_ok p (trace_of p s0' is)).
  { clear - CO PC. unfold client_ok in *. rewrite Forall_forall in *. intros [j o] IN E. cbn [fst snd] in *.
    unfold trace_of in IN, CO. apply In_nth_error in IN. destruct IN as (n & IN). apply nth_error_combine in IN. destruct IN as [N1 N2].
    apply (f_equal (fun l => nth_error l n)) in PC. rewrite !nth_error_map, N2 in PC. cbn [option_map] in PC.
    destruct (nth_error (snd (run p s0 is)) n) as [o2|] eqn:N3; [|discriminate PC]. inversion PC as [[P1 P2 P3]].
    destruct (CO (j, o2)) as [X Y].
    - eapply nth_error_In. apply combine_nth_error; eauto.
    - auto.
    - cbn [snd fst] in *. split; auto. congruence. }
  assert (S' : sys_run p s0' is m0 m' rq' rs) by (split; auto).
  split; [exists m', rq'; auto|].
  assert (RE : responses (trace_of p s0' is) = responses (trace_of p s0 is)).
  { destruct (resp_len is _ _ (run_length p is s0) PC) as [RL RH].
    destruct (sys_flat p W s0 is m0 m rq rs (conj R (conj CO MT))) as (r1 & D1). destruct (sys_flat p W s0' is m0 m' rq' rs S') as (r2 & D2).
    rewrite (accepted_same _ _ D), D1 in D2. apply app_split2 in D2; [|rewrite !map_length; unfold trace_of; auto].
    destruct D2 as [DD _]. revert RH DD. unfold trace_of. generalize (responses (combine is (snd (run p s0 is)))) (responses (combine is (snd (run p s0' is)))). clear.
    induction l as [|y l IH]; intros [|y' l'] H E; try discriminate; auto. cbn [map] in *. inversion H. inversion E. f_equal; auto.
    destruct y, y'; cbn in *; congruence. }
  pose proof (resps_cycle is _ _ (run_length p is s0) PC RE) as C.
  unfold trace_of in *. clear - D C. pose proof (run_length p is s0) as L1. pose proof (run_length p is s0') as L2.
  revert D C L1 L2. generalize (snd (run p s0 is)) (snd (run p s0' is)). induction is as [|i is IH]; intros O O' D C L1 L2; cbn [combine map]; [constructor|].
  destruct O as [|o O], O' as [|o' O']; try discriminate. cbn [combine map snd] in *. inversion D as [|? ? ? ? [_ D1] D2]; subst. inversion C as [|? ? ? ? [C1 C2] C3]; subst.
  constructor; [constructor; auto|]. apply IH; auto.
Qed.
End Q.
