(** Losing the cache at an arbitrary moment: what main memory then contains, and
    what a cache started afterwards with that memory shows.  [rst_next] is one
    clock edge with reset high. *)
From Coq Require Import Arith NArith List Bool Lia.
From Verif Require Import Bits Params Msg Units Rtl Mem Spec System Traffic Tl ParamsProofs RtlLemmas RefineInv RefineStall RefineProofs
  ViewDefs ViewProofs MetaProofs PendProofs TrafProofs SysProofs SysFacts Facts1 Facts3 Facts4.
Import ListNotations.
Open Scope N_scope.

(** One clock edge with reset high: pymtl3's RegRst and RegEnRst load their reset
    value whatever their enable (BlockingCacheCtrlRTL.py 125, 139, 160, 444-456,
    573, 663-680; BlockingCacheDpathRTL.py 45, 154-166, 309-315; MSHR.py 37, 57;
    counters.py 24; registers.py 27); the SRAMs and the RegEn of the stall engines
    (StallEngine.py 33) have no reset and do what they do in any cycle. *)
Definition rst_next (p : params) (s : st) (i : inp) : st := {|
  fsm := F_INIT; ctr := total_lines p - 1; mrv := false; mrm := mresp0; msn := 0; msr := mshr0;
  t1 := TR_INVALID; wp1 := 0; utw1 := 0; q1 := creq0; fi1 := 0; dm1 := 0; rep := fun _ => 0;
  tram := tram (next p s i); tdout := tdout (next p s i); tsr := tsr (next p s i); hsr := hsr (next p s i);
  wst := false;
  t2 := TR_INVALID; ev2 := false; hit2 := false; fs2 := false; q2 := creq0; wm2 := 0;
  dram := dram (next p s i); ddout := ddout (next p s i); dsr := dsr (next p s i) |}.
(** Reset held for any number of cycles. *)
Fixpoint rst_run (p : params) (s : st) (is : list inp) : st :=
  match is with [] => s | i :: is => rst_run p (rst_next p s i) is end.

(** Specification: two memories agree on line [l]; a request after whose answer
    line [l] of main memory must be up to date. *)
Definition same_line (p : params) (l : N) (m m' : mem) : Prop :=
  forall a, a < 2 ^ p_abw p -> line_of p a = l -> trunc 8 (m a) = trunc 8 (m' a).
Definition durable (p : params) (l : N) (r : creq) : Prop :=
  cq_type r = T_FLUSH \/ (is_amo (cq_type r) = true /\ line_of p (cq_addr r) = l).

Section C.
Variable p : params.
Hypothesis W : wf_params p.
Variable m0 : mem.

(** Line [l] of [mm] is that of the flat memory after the first [k] requests of
    [A], and [k] is past every durable request among the first [n]. *)
Definition good1 (A : list creq) (n : nat) (mm : mem) (l : N) : Prop :=
  exists k, (k <= length A)%nat /\ same_line p l mm (flat_mem p m0 (firstn k A)) /\
    forall j r, (j < n)%nat -> nth_error A j = Some r -> durable p l r -> (j < k)%nat.
Definition good A n mm : Prop := forall l, good1 A n mm l.
Definition curr (A : list creq) (P : N -> bool) (mm : mem) : Prop :=
  forall a, a < 2 ^ p_abw p -> P (word_num a) = false -> trunc 8 (mm a) = trunc 8 (flat_mem p m0 A a).
Definition inv A P mm : Prop := good A (length A) mm /\ curr A P mm.

Lemma good_all : forall A n mm l, (n <= length A)%nat -> same_line p l mm (flat_mem p m0 A) -> good1 A n mm l.
Proof.
  intros A n mm l L S. exists (length A). split; auto. rewrite firstn_all. split; auto. intros; lia.
Qed.
Lemma good1_app : forall A B n mm l, good1 A n mm l -> (n <= length A)%nat -> good1 (A ++ B) n mm l.
Proof.
  intros A B n mm l (k & K & S & D) L. exists k. split; [rewrite app_length; lia|]. split.
  - rewrite firstn_app. replace (k - length A)%nat with 0%nat by lia. cbn [firstn]. rewrite app_nil_r. auto.
  - intros j r J E. apply D; auto. rewrite nth_error_app1 in E by lia. auto.
Qed.
Lemma good1_ext : forall A n mm mm' l, good1 A n mm l -> same_line p l mm' mm -> good1 A n mm' l.
Proof.
  intros A n mm mm' l (k & K & S & D) E. exists k. split; auto. split; auto.
  intros a HA HL. rewrite E by auto. apply S; auto.
Qed.

Lemma lb_pos : 0 < line_bytes p.
Proof. rewrite (line_bytes_pow p W). apply pow2_pos. Qed.

(** write-backs *)
Lemma inv_wb : forall A P mm q, inv A P mm -> wb_ok p P (flat_mem p m0 A) q ->
  inv A (clear p P q) (fst (mem_exec p mm q)).
Proof.
  intros A P mm q [G C] [T [AL AB] LN _ MK DT]. pose proof lb_pos as LB. pose proof (lb_words p W) as LW.
  assert (EX : forall x, fst (mem_exec p mm q) x =
     if (mq_addr q <=? x) && (x <? mq_addr q + line_bytes p) && N.testbit (mq_mask q) ((x - mq_addr q) / 4)
     then gb (mq_data q) (x - mq_addr q) else mm x).
  { intros x. unfold mem_exec. rewrite T. change (T_WRITE =? T_READ) with false. change (T_WRITE =? T_WRITE) with true.
    cbn [fst]. rewrite wr_masked_spec, (clw_words p), <- LW. auto. }
  assert (IN : forall a, line_of p a = line_of p (mq_addr q) <-> mq_addr q <= a < mq_addr q + line_bytes p).
  { intros a. unfold line_of. pose proof (N.div_mod' (mq_addr q) (line_bytes p)) as D. rewrite AL, N.add_0_r in D.
    set (z := mq_addr q / line_bytes p) in *. clearbody z. split; intros H.
    - pose proof (N.div_mod' a (line_bytes p)) as D'. rewrite H in D'. pose proof (N.mod_lt a (line_bytes p) ltac:(lia)) as M'.
      set (w := a mod line_bytes p) in *. clearbody w. clear - D D' M'. lia.
    - symmetry. apply N.div_unique with (a - mq_addr q); lia. }
  assert (WN : forall o, word_num (mq_addr q + o) = word_num (mq_addr q) + o / 4).
  { intros o. unfold word_num. pose proof (N.div_mod' (mq_addr q) (line_bytes p)) as D. rewrite AL, N.add_0_r, LW in D.
    rewrite D. set (z := mq_addr q / (4 * dtyw p)). clearbody z.
    replace (4 * dtyw p * z) with ((dtyw p * z) * 4) by lia.
    rewrite N.div_add_l, N.div_mul by lia. auto. }
  assert (CUR : forall a, a < 2 ^ p_abw p -> line_of p a = line_of p (mq_addr q) ->
            trunc 8 (fst (mem_exec p mm q) a) = trunc 8 (flat_mem p m0 A a)).
  { intros a HA HL. apply IN in HL. rewrite EX. set (o := a - mq_addr q).
    assert (EA : a = mq_addr q + o) by (unfold o; lia). assert (HO : o < line_bytes p) by (unfold o; lia).
    destruct (N.leb_spec (mq_addr q) a); [|lia]. destruct (N.ltb_spec a (mq_addr q + line_bytes p)); [|lia]. cbn [andb].
    destruct (N.testbit (mq_mask q) (o / 4)) eqn:B.
    - specialize (DT o HO B). unfold gb. rewrite DT, <- EA, trunc_small; auto. apply trunc_lt.
    - apply C; auto. rewrite EA, WN. rewrite MK in B.
      destruct (N.ltb_spec (o / 4) (p_clw p / 32)) as [Z|Z]; [auto|].
      exfalso. rewrite (clw_words p) in Z.
      assert (o / 4 < dtyw p) by (apply N.div_lt_upper_bound; [discriminate | rewrite <- LW; auto]).
      set (z := o / 4) in *. clearbody z. clear - Z H1. lia. }
  assert (OTH : forall a, line_of p a <> line_of p (mq_addr q) -> fst (mem_exec p mm q) a = mm a).
  { intros a HL. rewrite EX. destruct (N.leb_spec (mq_addr q) a); auto. destruct (N.ltb_spec a (mq_addr q + line_bytes p)); auto.
    exfalso. apply HL, IN. lia. }
  split.
  - intros l. destruct (N.eq_dec l (line_of p (mq_addr q))) as [->|N].
    + apply good_all; [lia|]. intros a HA HL. auto.
    + eapply good1_ext; [apply G|]. intros a HA HL. rewrite OTH; auto. congruence.
  - intros a HA HP. destruct (N.eq_dec (line_of p a) (line_of p (mq_addr q))) as [E|E]; auto.
    rewrite OTH by auto. apply C; auto. unfold clear in HP. destruct (P (word_num a)) eqn:PA; auto.
    cbn [andb] in HP. exfalso. apply negb_false_iff in HP. unfold in_req in HP. apply andb_true_iff in HP. destruct HP as [H1 H2].
    apply N.leb_le in H1. apply N.ltb_lt in H2. apply E, IN.
    pose proof (WN 0) as W0. rewrite N.add_0_r in W0. pose proof (WN (line_bytes p)) as W1.
    rewrite (clw_words p) in H2. rewrite LW in W1 at 2. rewrite N.mul_comm, N.div_mul in W1 by discriminate.
    assert (B0 : mq_addr q mod 4 = 0).
    { pose proof (N.div_mod' (mq_addr q) (line_bytes p)) as D. rewrite AL, N.add_0_r, LW in D. rewrite D, <- N.mul_assoc, N.mul_comm.
      apply N.mod_mul. discriminate. }
    unfold word_num in *. pose proof (N.div_mod' a 4) as DA. pose proof (N.mod_lt a 4 ltac:(discriminate)) as MA.
    pose proof (N.div_mod' (mq_addr q) 4) as DQ. rewrite B0 in DQ. rewrite LW.
    set (u := a / 4) in *. set (v := mq_addr q / 4) in *. set (w := a mod 4) in *. clearbody u v w.
    clear - DA MA DQ H1 H2. lia.
Qed.

Lemma inv_wbs : forall wb A P mm, inv A P mm -> wbs_ok p P (flat_mem p m0 A) wb ->
  inv A (clears p P wb) (fst (mem_run p mm wb)).
Proof.
  induction wb as [|q wb IH]; intros A P mm I H; [exact I|]. destruct H as [H1 H2].
  pose proof (inv_wb _ _ _ _ I H1) as I1. cbn [mem_run]. destruct (mem_exec p mm q) as [m1 x].
  specialize (IH _ _ _ I1 H2). cbn [fst] in *. destruct (mem_run p m1 wb) as [m2 xs]. auto.
Qed.
Lemma wbs_firstn : forall n wb P M, wbs_ok p P M wb -> wbs_ok p P M (firstn n wb).
Proof. induction n; intros [|q wb] P M H; cbn; auto. destruct H. split; auto. Qed.
Lemma wbs_writes : forall wb P M, wbs_ok p P M wb -> writes wb = wb.
Proof.
  induction wb as [|q wb IH]; intros P M H; auto. destruct H as [H1 H2]. unfold writes in *. cbn [filter].
  unfold is_write at 1. rewrite (wb_type _ _ _ _ H1). change (T_WRITE =? T_WRITE) with true. cbv iota. f_equal. exact (IH _ _ H2).
Qed.

(** A request that is not durable and changes only words it marks. *)
Lemma inv_plain : forall A P mm r, inv A P mm -> cq_type r <> T_FLUSH -> is_amo (cq_type r) = false ->
  inv (A ++ [r]) (mark p P r) mm.
Proof.
  intros A P mm r [G C] NF NA. split.
  - intros l. destruct (G l) as (k & K & S & D). exists k. split; [rewrite app_length; lia|]. split.
    + rewrite firstn_app. replace (k - length A)%nat with 0%nat by lia. cbn [firstn]. rewrite app_nil_r. auto.
    + intros j x J E DU. rewrite app_length in J. cbn [length] in J.
      destruct (Nat.eq_dec j (length A)) as [->|N].
      * rewrite nth_error_app2, Nat.sub_diag in E by lia. cbn in E. inversion E; subst.
        destruct DU as [DU | [DU _]]; congruence.
      * rewrite nth_error_app1 in E by lia. eapply D; eauto. lia.
  - intros a HA HP. rewrite flat_mem_app. cbn [flat_mem].
    assert (EQ : fst (flat_exec p (flat_mem p m0 A) r) a = flat_mem p m0 A a /\ P (word_num a) = false).
    { unfold mark in HP. unfold flat_exec. destruct (N.eqb_spec (cq_type r) T_READ) as [E|E].
      { rewrite E in HP. auto. }
      destruct (N.eqb_spec (cq_type r) T_WRITE) as [E1|E1].
      - apply orb_false_iff in HP. destruct HP as [H1 H2]. split; auto. cbn [fst]. unfold wr_bytes. rewrite N2Nat.id.
        destruct (N.leb_spec (cq_addr r) a) as [L1|L1]; auto. destruct (N.ltb_spec a (cq_addr r + req_bytes p r)) as [L2|L2]; auto.
        exfalso. apply andb_false_iff in H2. unfold word_num in H2.
        assert (cq_addr r / 4 <= a / 4) by (apply N.div_le_mono; lia).
        assert (a / 4 <= (cq_addr r + req_bytes p r - 1) / 4) by (apply N.div_le_mono; lia).
        destruct H2 as [H2|H2]; apply N.leb_gt in H2;
        set (u := a / 4) in *; set (v := cq_addr r / 4) in *; set (w := (cq_addr r + req_bytes p r - 1) / 4) in *; clearbody u v w; lia.
      - rewrite NA. auto. }
    destruct EQ as [-> EP]. apply C; auto.
Qed.

Lemma inv_flush : forall A P mm r, inv A P mm -> cq_type r = T_FLUSH ->
  (forall k, k * 4 < 2 ^ p_abw p -> P k = false) -> inv (A ++ [r]) (mark p P r) mm.
Proof.
  intros A P mm r [G C] TF CL. unfold mark. rewrite TF. change (T_FLUSH =? T_WRITE) with false.
  assert (EQ : forall a, a < 2 ^ p_abw p -> trunc 8 (mm a) = trunc 8 (flat_mem p m0 (A ++ [r]) a)).
  { intros a HA. rewrite flat_mem_app. cbn [flat_mem]. unfold flat_exec. rewrite TF.
    change (T_FLUSH =? T_WRITE) with false. change (T_FLUSH =? T_READ) with false. change (is_amo T_FLUSH) with false.
    cbn [fst]. apply C; auto. apply CL. unfold word_num. pose proof (N.div_mod' a 4) as DM.
    set (z := a / 4) in *. set (w := a mod 4) in *. clearbody z w. clear - DM HA. lia. }
  split.
  - intros l. apply good_all; [lia|]. intros a HA _. auto.
  - intros a HA _. auto.
Qed.

Lemma inv_amo : forall A P mm r q, inv A P mm -> wf_req p r -> is_amo (cq_type r) = true ->
  (forall k, k * 4 / line_bytes p = line_of p (cq_addr r) -> P k = false) ->
  mq_type q = cq_type r -> mq_addr q = cq_addr r -> mq_data q = trunc (p_dbw p) (cq_data r) ->
  inv (A ++ [r]) (mark p P r) (fst (mem_exec p mm q)).
Proof.
  intros A P mm r q [G C] WF TA CL QT QA QD. pose proof lb_pos as LB. pose proof (lb_words p W) as LW.
  assert (TY : (cq_type r =? T_READ) = false /\ (cq_type r =? T_WRITE) = false).
  { unfold is_amo, T_READ, T_WRITE, T_AMO_ADD in *. apply andb_true_iff in TA. destruct TA as [TA _]. apply N.leb_le in TA.
    split; apply N.eqb_neq; lia. }
  destruct TY as [T1 T2].
  assert (AM : cq_addr r mod 4 = 0).
  { destruct WF as (_ & _ & [(E & _) | [(E & _) | [(_ & E & _) | [E | E]]]]); auto; rewrite E in TA; discriminate TA. }
  pose proof WF as (HA & _).
  assert (DV : forall k, k < 4 -> cq_addr r + k < 2 ^ p_abw p /\ line_of p (cq_addr r + k) = line_of p (cq_addr r) /\
                          word_num (cq_addr r + k) = word_num (cq_addr r)).
  { intros k K. destruct (off_aligned p (cq_addr r) 2) as [_ OF]; [pose proof (offw_ge3 p W); lia | auto |].
    change (2 ^ 2) with 4 in OF.
    destruct (addr_add p W (cq_addr r) k HA) as (B1 & B2 & B3 & B4); [lia|]. split; auto. split.
    - rewrite !(line_eq p W), B2, B3 by auto. auto.
    - unfold word_num. pose proof (N.div_mod' (cq_addr r) 4) as D. rewrite AM in D.
      symmetry. apply N.div_unique with k; auto. lia. }
  assert (PW : P (word_num (cq_addr r)) = false).
  { apply CL. unfold word_num. pose proof (N.div_mod' (cq_addr r) 4) as D. rewrite AM, N.add_0_r in D.
    rewrite N.mul_comm, <- D. auto. }
  assert (RD : rd_bytes mm (cq_addr r) 4 = rd_bytes (flat_mem p m0 A) (cq_addr r) 4).
  { apply rd_ext. intros k K. change (N.of_nat 4) with 4 in K. destruct (DV k K) as (D1 & _ & D3). apply C; auto. rewrite D3; auto. }
  assert (DD : slice (trunc (p_dbw p) (cq_data r)) 0 32 = trunc 32 (cq_data r)).
  { assert (D32 : 32 <= p_dbw p) by (destruct (wf_dbw p W) as [K | [K | K]]; rewrite K; lia). apply N.bits_inj. intros b. rewrite testbit_slice, !testbit_trunc, N.sub_0_r, N.add_0_r.
    destruct (N.ltb_spec b 32); auto. destruct (N.ltb_spec b (p_dbw p)); auto. lia. }
  assert (EX : forall a, trunc 8 (mm a) = trunc 8 (flat_mem p m0 A a) ->
     trunc 8 (fst (mem_exec p mm q) a) = trunc 8 (flat_mem p m0 (A ++ [r]) a)).
  { intros a EA. rewrite flat_mem_app. cbn [flat_mem]. unfold mem_exec, flat_exec. rewrite QT, T1, T2, TA, QA, QD, RD, DD. cbn [fst].
    unfold wr_bytes. destruct ((cq_addr r <=? a) && (a <? cq_addr r + N.of_nat 4)); auto. }
  assert (OT : forall a, line_of p a <> line_of p (cq_addr r) -> fst (mem_exec p mm q) a = mm a).
  { intros a NE. unfold mem_exec. rewrite QT, T1, T2, QA. cbn [fst]. unfold wr_bytes. change (N.of_nat 4) with 4.
    destruct (N.leb_spec (cq_addr r) a) as [L1|L1]; auto. destruct (N.ltb_spec a (cq_addr r + 4)) as [L2|L2]; auto.
    exfalso. apply NE. replace a with (cq_addr r + (a - cq_addr r)) by lia. apply DV. lia. }
  assert (PL : forall a, line_of p a = line_of p (cq_addr r) -> P (word_num a) = false).
  { intros a HL. apply CL. rewrite <- HL. unfold word_num, line_of. rewrite LW.
    pose proof (N.div_mod' a 4) as D1. pose proof (N.mod_lt a 4 ltac:(discriminate)) as M1. pose proof (dty_pos p W) as DP.
    rewrite <- !N.div_div by lia. rewrite N.div_mul by discriminate. auto. }
  unfold mark. rewrite T2. split.
  - intros l. destruct (N.eq_dec l (line_of p (cq_addr r))) as [->|N].
    + apply good_all; [lia|]. intros a H1 H2. apply EX. apply C; auto.
    + destruct (G l) as (k & K & S & D). exists k. split; [rewrite app_length; lia|]. split.
      * intros a H1 H2. rewrite OT by congruence. rewrite firstn_app. replace (k - length A)%nat with 0%nat by lia.
        cbn [firstn]. rewrite app_nil_r. auto.
      * intros j x J E DU. rewrite app_length in J. cbn [length] in J.
        destruct (Nat.eq_dec j (length A)) as [->|NJ].
        -- rewrite nth_error_app2, Nat.sub_diag in E by lia. cbn in E. inversion E; subst.
           destruct DU as [DU | [_ DU]]; [rewrite DU in TA; discriminate TA | congruence].
        -- rewrite nth_error_app1 in E by lia. eapply D; eauto. lia.
  - intros a H1 H2. apply EX. apply C; auto.
Qed.

Lemma clears_app' : forall P l l', clears p P (l ++ l') = clears p (clears p P l) l'.
Proof. intros. unfold clears. apply fold_left_app. Qed.

(** A whole group. *)
Lemma inv_group : forall A P L mm r g, inv A P mm -> wf_req p r -> req_traffic p P L (flat_mem p m0 A) r g ->
  inv (A ++ [r]) (mark p (clears p P (writes g)) r) (fst (mem_run p mm g)).
Proof.
  intros A P L mm r g I WF RT. unfold req_traffic in RT. destruct (rw_req r) eqn:RW.
  - assert (ND : cq_type r <> T_FLUSH /\ is_amo (cq_type r) = false).
    { unfold rw_req in RW. apply orb_true_iff in RW. destruct RW as [E|E]; apply N.eqb_eq in E; rewrite E; split; auto; discriminate. }
    destruct ND as [NF NA].
    destruct (in_dec N.eq_dec _ _) as [HI|HI].
    + subst g. apply inv_plain; auto.
    + destruct RT as (wb & q & -> & WB & _ & _ & TQ & _).
      assert (EW : writes (wb ++ [q]) = wb).
      { unfold writes. rewrite filter_app. fold (writes wb). rewrite (wbs_writes _ _ _ WB). cbn [filter]. unfold is_write.
        rewrite TQ. apply app_nil_r. }
      rewrite EW. apply inv_plain; auto. rewrite mem_run_app. cbn [fst].
      assert (E : forall x, fst (mem_run p x [q]) = x).
      { intros x. cbn [mem_run]. unfold mem_exec. rewrite TQ. auto. }
      rewrite E. apply inv_wbs; auto.
  - destruct (is_amo (cq_type r)) eqn:TA.
    + destruct RT as (wb & q & -> & WB & _ & _ & CL & TQ & _ & AQ & _ & DQ).
      assert (EW : writes (wb ++ [q]) = wb).
      { unfold writes. rewrite filter_app. fold (writes wb). rewrite (wbs_writes _ _ _ WB). cbn [filter]. unfold is_write.
        rewrite TQ. destruct (N.eqb_spec (cq_type r) T_WRITE) as [E|E]; [rewrite E in TA; discriminate | apply app_nil_r]. }
      rewrite EW, mem_run_app. cbn [fst].
      assert (E : forall x, fst (mem_run p x [q]) = fst (mem_exec p x q)).
      { intros x. cbn [mem_run]. destruct (mem_exec p x q); auto. }
      rewrite E. apply inv_amo; auto. apply inv_wbs; auto.
    + destruct (N.eqb_spec (cq_type r) T_FLUSH) as [TF|TF].
      * destruct RT as [WB CL]. rewrite (wbs_writes _ _ _ WB). apply inv_flush; auto. apply inv_wbs; auto.
      * subst g. apply inv_plain; auto.
Qed.

(** A proper prefix of a group. *)
Lemma inv_part : forall A P L mm r g ex rest, inv A P mm -> req_traffic p P L (flat_mem p m0 A) r g ->
  g = ex ++ rest -> (length ex < length g)%nat -> good A (length A) (fst (mem_run p mm ex)).
Proof.
  intros A P L mm r g ex rest I RT E LT.
  assert (WB : wbs_ok p P (flat_mem p m0 A) ex).
  { assert (Z : forall wb q, g = wb ++ [q] -> wbs_ok p P (flat_mem p m0 A) wb -> wbs_ok p P (flat_mem p m0 A) ex).
    { intros wb q EG WB. replace ex with (firstn (length ex) wb); [apply wbs_firstn; auto|].
      assert (LL : (length ex <= length wb)%nat) by (rewrite EG, app_length in LT; cbn in LT; lia).
      pose proof (f_equal (firstn (length ex)) EG) as Y. rewrite E, !firstn_app, Nat.sub_diag in Y.
      replace (length ex - length wb)%nat with 0%nat in Y by lia. cbn [firstn] in Y.
      rewrite !app_nil_r, firstn_all in Y. auto. }
    unfold req_traffic in RT. destruct (rw_req r).
    - destruct (in_dec N.eq_dec _ _).
      + rewrite RT in LT. cbn in LT. lia.
      + destruct RT as (wb & q & EG & WB & _). eauto.
    - destruct (is_amo (cq_type r)); [destruct RT as (wb & q & EG & WB & _); eauto|].
      destruct (cq_type r =? T_FLUSH).
      + destruct RT as [WB _]. replace ex with (firstn (length ex) g); [apply wbs_firstn; auto|].
        rewrite E, firstn_app, Nat.sub_diag, firstn_all. cbn [firstn]. apply app_nil_r.
      + rewrite RT in LT. cbn in LT. lia. }
  apply (inv_wbs _ _ _ _ I WB).
Qed.

Lemma good_weaken : forall A n n' mm, good A n mm -> (n' <= n)%nat -> good A n' mm.
Proof.
  intros A n n' mm G L l. destruct (G l) as (k & K & S & D). exists k. split; auto. split; auto.
  intros j r J. apply D. lia.
Qed.

Lemma crash_traffic : forall A G P L A0 mm n ex rest mid, inv A0 P mm -> Forall (wf_req p) A ->
  traffic p P L (flat_mem p m0 A0) A G -> concat G = ex ++ rest -> ex = concat (firstn n G) ++ mid ->
  (n <= length A)%nat ->
  good (A0 ++ A) (length A0 + n) (fst (mem_run p mm ex)).
Proof.
  induction A as [|r A IH]; intros [|g G] P L A0 mm n ex rest mid I WA TR CE EM NL; try contradiction.
  - cbn [concat] in CE. symmetry in CE. apply app_eq_nil in CE. destruct CE as [-> _]. cbn [mem_run fst].
    rewrite app_nil_r. cbn in NL. apply good_weaken with (length A0); [apply I | lia].
  - cbn [traffic] in TR. destruct TR as [RT TR]. inversion WA as [|? ? WF WA']; subst x l.
    cbn [concat] in CE.
    destruct (le_lt_dec (length g) (length ex)) as [LE|LT].
    + assert (EE : exists ex', ex = g ++ ex' /\ concat G = ex' ++ rest).
      { exists (skipn (length g) ex). pose proof (f_equal (firstn (length g)) CE) as Y.
        rewrite !firstn_app, Nat.sub_diag, firstn_all in Y. replace (length g - length ex)%nat with 0%nat in Y by lia.
        cbn [firstn] in Y. rewrite !app_nil_r in Y. split.
        - rewrite Y at 1. symmetry. apply firstn_skipn.
        - pose proof (f_equal (skipn (length g)) CE) as Z. rewrite !skipn_app, Nat.sub_diag, skipn_all in Z.
          replace (length g - length ex)%nat with 0%nat in Z by lia. cbn [skipn app] in Z. auto. }
      destruct EE as (ex' & EX & CG). rewrite EX, mem_run_app. cbn [fst].
      replace (A0 ++ r :: A) with ((A0 ++ [r]) ++ A) by (rewrite <- app_assoc; auto).
      assert (FM : flat_mem p m0 (A0 ++ [r]) = fst (flat_exec p (flat_mem p m0 A0) r)) by (rewrite flat_mem_app; auto).
      destruct n as [|n].
      * apply good_weaken with (length (A0 ++ [r]) + 0)%nat; [|rewrite app_length; cbn; lia].
        eapply IH with (G := G) (mid := ex') (rest := rest); eauto.
        -- eapply inv_group; eauto.
        -- rewrite FM. eauto.
        -- lia.
      * replace (length A0 + S n)%nat with (length (A0 ++ [r]) + n)%nat by (rewrite app_length; cbn; lia).
        eapply IH with (G := G) (mid := mid) (rest := rest); eauto.
        -- eapply inv_group; eauto.
        -- rewrite FM. eauto.
        -- cbn [firstn concat] in EM. rewrite EX, <- app_assoc in EM. apply app_inv_head in EM. auto.
        -- cbn in NL. lia.
    + assert (n = 0)%nat as ->.
      { destruct n; auto. exfalso. cbn [firstn concat] in EM. rewrite EM, !app_length in LT. lia. }
      assert (EG : g = ex ++ firstn (length g - length ex) rest).
      { pose proof (f_equal (firstn (length g)) CE) as Y. rewrite !firstn_app, Nat.sub_diag, firstn_all in Y.
        cbn [firstn] in Y. rewrite app_nil_r in Y. rewrite (firstn_all2 ex) in Y by lia. auto. }
      rewrite Nat.add_0_r. intros l. apply good1_app; auto. eapply inv_part; eauto.
Qed.
End C.

Section S.
Variable p : params.
Hypothesis W : wf_params p.

Lemma sys_wf : forall s0 is m0 m rq rs, sys_run p s0 is m0 m rq rs -> Forall (wf_req p) (accepted (trace_of p s0 is)).
Proof.
  intros s0 is m0 m rq rs (_ & CL & _). unfold client_ok in CL. unfold accepted.
  induction CL as [|x t H CL IH]; cbn [flat_map]; auto. apply Forall_app. split; auto.
  destruct (i_req_en (fst x)); auto. constructor; auto. apply H; auto.
Qed.

(** The memory requests executed so far: at least those of all answered requests. *)
Lemma sys_executed : forall s0 is m0 m rq rs, sys_run p s0 is m0 m rq rs ->
  let tr := trace_of p s0 is in
  exists G ex rest mid, traffic p none lru_empty m0 (accepted tr) G /\ concat G = ex ++ rest /\
    ex = concat (firstn (length (responses tr)) G) ++ mid /\ m = fst (mem_run p m0 ex) /\
    (length (responses tr) <= length (accepted tr))%nat.
Proof.
  intros s0 is m0 m rq rs R tr. destruct (sys_state p W _ _ _ _ _ _ R) as (a & ST).
  destruct (stok_J p _ _ _ _ _ _ _ _ ST) as [JJ _].
  destruct (J_hist p _ _ _ _ _ _ _ _ JJ) as (A0 & c & mb & Q & pd & H & _ & _ & C). fold tr in H, C.
  pose proof (hist_length p _ _ _ _ _ _ H) as HL. rewrite app_length in HL.
  destruct R as (_ & _ & MT). destruct (mem_trace_run _ _ _ _ _ _ _ _ MT) as (ex & EX & EM & _).
  cbn [app] in EX. fold tr in EX.
  destruct C as [(E & _ & RQ & _ & _ & F) | (r & ex1 & qs & todo & out & l & E & WF & _ & TR & _ & _ & _ & LQ & F)]; rewrite E.
  - destruct (hist_traffic p W _ _ _ _ _ _ H _ F) as (G & LG & CG & TG & _).
    rewrite RQ, app_nil_r in EX. exists G, ex, [], (concat (skipn (length (responses tr)) G)).
    split; auto. rewrite app_nil_r, <- EX. split; auto. rewrite <- concat_app, firstn_skipn. split; [auto|].
    split; [|lia]. rewrite EX. auto.
  - apply Forall2_app_inv_l in F. destruct F as (S1 & S2 & F1 & F2 & ES).
    assert (FM : Forall2 (mreq_match r) (tl_reqs p c r) (S2 ++ todo)).
    { rewrite TR, app_assoc. apply Forall2_app; [|apply match_refl]. clear - F2. revert S2 F2.
      induction (ex1 ++ qs) as [|e l0 IHl]; intros S2 F2; inversion F2; subst; constructor; auto. }
    destruct (hist_flat p W _ _ _ _ _ _ H) as (I & V & _).
    destruct (hist_traffic p W _ _ _ _ _ _ H _ F1) as (G & LG & CG & TG & PG & LI & _).
    destruct (traf_step p W c mb _ _ (flat_mem p m0 A0) r 0 I PG LI V WF) as [T1 _].
    assert (L2 : length S2 = (length ex1 + length qs)%nat).
    { apply Forall2_len in F2. rewrite map_length, app_length in F2. lia. }
    assert (SX : exists x, ex = S1 ++ x).
    { exists (skipn (length S1) ex). rewrite ES in EX.
      pose proof (f_equal (firstn (length S1)) EX) as Y. rewrite !firstn_app, Nat.sub_diag, firstn_all in Y.
      pose proof (f_equal (@length _) EX) as Z. rewrite !app_length in Z.
      replace (length S1 - length ex)%nat with 0%nat in Y by lia. cbn [firstn] in Y. rewrite !app_nil_r in Y.
      rewrite Y at 1. symmetry. apply firstn_skipn. }
    destruct SX as (x & SX).
    exists (G ++ [S2 ++ todo]), ex, (rq ++ todo), (concat (skipn (length (responses tr)) G) ++ x).
    split; [apply traf_snoc; auto; split; auto; eapply traf_match; eauto|].
    split.
    { rewrite concat_app, CG. cbn [concat]. rewrite app_nil_r, !app_assoc, <- ES, EX. auto. }
    split.
    { rewrite firstn_app. replace (length (responses tr) - length G)%nat with 0%nat by lia.
      cbn [firstn]. rewrite app_nil_r, app_assoc, <- concat_app, firstn_skipn, CG. auto. }
    split; auto. rewrite app_length. lia.
Qed.

Theorem sys_crash : forall s0 is m0 m rq rs l, sys_run p s0 is m0 m rq rs ->
  let tr := trace_of p s0 is in
  exists k, (k <= length (accepted tr))%nat /\ same_line p l m (flat_mem p m0 (firstn k (accepted tr))) /\
    forall j r, (j < length (responses tr))%nat -> nth_error (accepted tr) j = Some r -> durable p l r -> (j < k)%nat.
Proof.
  intros s0 is m0 m rq rs l R tr.
  destruct (sys_executed _ _ _ _ _ _ R) as (G & ex & rest & mid & TG & CG & EM & MM & LN).
  rewrite MM. refine (crash_traffic p W m0 (accepted tr) G none lru_empty [] m0 _ ex rest mid _ _ TG CG EM LN l).
  - split.
    + intros l'. exists 0%nat. split; auto. split; [intros a _ _; auto|]. cbn. intros; lia.
    + intros a _ _. auto.
  - eapply sys_wf; eauto.
Qed.

(** ** Reset *)
Lemma rst_reset : forall s i, reset_state p (rst_next p s i).
Proof. intros s i. unfold reset_state, rst_next. cbn. repeat (split; [reflexivity|]). auto. Qed.
Lemma rst_run_reset : forall is s i, reset_state p (rst_run p (rst_next p s i) is).
Proof. induction is as [|j is IH]; intros s i; [apply rst_reset | apply IH]. Qed.

Theorem reset_recover : forall s0 is m0 m rq rs i hold is2 m2 rq2 rs2,
  sys_run p s0 is m0 m rq rs ->
  let s1 := rst_run p (rst_next p (fst (run p s0 is)) i) hold in
  client_ok p (trace_of p s1 is2) -> mem_trace p m [] [] (trace_of p s1 is2) m2 rq2 rs2 ->
  sys_run p s1 is2 m m2 rq2 rs2.
Proof. intros s0 is m0 m rq rs i hold is2 m2 rq2 rs2 R s1 C M. split; [apply rst_run_reset | auto]. Qed.

Lemma flat_data_ext : forall A m m', eqm p m m' -> Forall (wf_req p) A -> flat_data p m A = flat_data p m' A.
Proof.
  induction A as [|r A IH]; intros m m' E F; auto. inversion F; subst. cbn [flat_data].
  destruct (flat_ext p W _ _ r E) as [E1 E2]; auto. rewrite E2. f_equal. auto.
Qed.

(** Clean shutdown: everything accepted was answered, the last request was a
    FLUSH.  The sessions before and after the reset are one flat history. *)
Theorem reset_clean : forall s0 is m0 m rq rs i hold is2 m2 rq2 rs2 A f, sys_run p s0 is m0 m rq rs ->
  let tr1 := trace_of p s0 is in
  length (responses tr1) = length (accepted tr1) -> accepted tr1 = A ++ [f] -> cq_type f = T_FLUSH ->
  let s1 := rst_run p (rst_next p (fst (run p s0 is)) i) hold in
  let tr2 := trace_of p s1 is2 in
  sys_run p s1 is2 m m2 rq2 rs2 ->
  exists rest, flat_data p m0 (accepted tr1 ++ accepted tr2) =
               map cr_data (responses tr1 ++ responses tr2) ++ rest.
Proof.
  intros s0 is m0 m rq rs i hold is2 m2 rq2 rs2 A f R tr1 L EA TF s1 tr2 R2.
  destruct (sys_flat p W _ _ _ _ _ _ R) as (r1 & F1). fold tr1 in F1.
  destruct (sys_flat p W _ _ _ _ _ _ R2) as (r2 & F2). fold tr2 in F2.
  assert (LD : forall B mm, length (flat_data p mm B) = length B) by (induction B; intros; cbn; auto).
  assert (r1 = []).
  { pose proof (f_equal (@length _) F1) as Z. rewrite LD, app_length, map_length in Z. destruct r1; auto. cbn in Z. lia. }
  subst r1. rewrite app_nil_r in F1.
  assert (EQ : eqm p (flat_mem p m0 (accepted tr1)) m).
  { intros a HA. destruct (sys_crash _ _ _ _ _ _ (line_of p a) R) as (k & K & S & D). fold tr1 in K, S, D.
    assert (k = length (accepted tr1)).
    { specialize (D (length A) f). rewrite L, EA, app_length in D. cbn in D.
      rewrite nth_error_app2, Nat.sub_diag in D by lia. rewrite EA, app_length in *. cbn in *.
      assert (length A < k)%nat; [|lia]. apply D; auto; [lia|]. left; auto. }
    subst k. rewrite firstn_all in S. symmetry. apply S; auto. }
  exists r2. rewrite flat_data_app, F1, (flat_data_ext _ _ _ EQ), F2.
  - rewrite map_app, app_assoc. auto.
  - exact (sys_wf _ _ _ _ _ _ R2).
Qed.

(** Only the cache is reset: answers of memory to requests made before the reset
    may still arrive while the cache initialises. *)
Lemma init_junk : forall is1 s k, ph_init p s k -> N.of_nat (length is1) = k + 1 ->
  i_mresp_en (last is1 (mkInp false creq0 false false false mresp0)) = false -> client_ok p (trace_of p s is1) ->
  accepted (trace_of p s is1) = [] /\ responses (trace_of p s is1) = [] /\ memreqs (trace_of p s is1) = [] /\
  exists c0, clean_start p c0 /\ phase p (fst (run p s is1)) (mkA c0 None []).
Proof.
  induction is1 as [|i is1 IH]; intros s k PI LN LA CL; [cbn in LN; lia|].
  rewrite trace_cons in *. inversion CL as [|? ? CL1 CL2]; subst.
  destruct (init_cycle p W s k i PI) as (O & RE & N'). { intros E. apply CL1; auto. }
  unfold accepted, responses, memreqs. cbn [flat_map fst snd]. rewrite RE, O. cbn [o_resp o_mreq opt_list app].
  cbn [run step]. destruct (run p (next p s i) is1) as [s2 os] eqn:ER. cbn [fst].
  destruct N' as [(K & N') | (K & N')].
  - destruct is1 as [|j is1]; [cbn in LN; lia|].
    destruct (IH _ _ N') as (A1 & A2 & A3 & A4); auto.
    { cbn [length] in LN |- *. rewrite !Nat2N.inj_succ in *. lia. }
    split; [exact A1|]. split; [exact A2|]. split; [exact A3|]. rewrite ER in A4. exact A4.
  - destruct is1 as [|j is1]; [|cbn [length] in LN; rewrite !Nat2N.inj_succ in LN; lia]. cbn [last] in LA. cbn in ER. inversion ER; subst.
    split; auto.
Qed.

Theorem reset_hot : forall s1 is1 is2 m m2 rq2 rs2, reset_state p s1 -> N.of_nat (length is1) = total_lines p ->
  i_mresp_en (last is1 (mkInp false creq0 false false false mresp0)) = false ->
  client_ok p (trace_of p s1 (is1 ++ is2)) ->
  let tr1 := trace_of p s1 is1 in
  let tr2 := trace_of p (fst (run p s1 is1)) is2 in
  mem_trace p m [] [] tr2 m2 rq2 rs2 ->
  accepted tr1 = [] /\ responses tr1 = [] /\ memreqs tr1 = [] /\
  (exists rest, flat_data p m (accepted tr2) = map cr_data (responses tr2) ++ rest) /\
  (exists rest, map (fun r => (cq_type r, cq_opq r, cq_len r)) (accepted tr2) =
                map (fun y => (cr_type y, cr_opq y, cr_len y)) (responses tr2) ++ rest).
Proof.
  intros s1 is1 is2 m m2 rq2 rs2 RS LN LA CL tr1 tr2 MT.
  rewrite trace_app in CL. apply Forall_app in CL. destruct CL as [CL1 CL2].
  pose proof (reset_init p W s1 RS) as PI. pose proof (total_ge2 p W) as T2.
  destruct (init_junk is1 s1 _ PI) as (A1 & A2 & A3 & c0 & CS & PH); auto; [lia|].
  split; [exact A1|]. split; [exact A2|]. split; [exact A3|].
  assert (LG : legal_run p (fst (run p s1 is1)) [] is2).
  { eapply (sys_legal p m [] []); eauto. exists []. auto. }
  destruct (run_sim p W is2 _ _ PH LG) as (a' & AR & _).
  assert (JJ : J p m a' m2 rq2 rs2 ([] ++ accepted tr2) ([] ++ responses tr2) ([] ++ memreqs tr2)).
  { eapply (J_run p); eauto. apply J_idle with []; [constructor; auto | constructor |]. intros n. cbn. lia. }
  cbn [app] in JJ.
  destruct (J_hist p _ _ _ _ _ _ _ _ JJ) as (A0 & c & mb & Q & pd & H & _ & _ & C).
  destruct (hist_flat p W _ _ _ _ _ _ H) as (_ & _ & D). rewrite map_app in D.
  pose proof (hist_echo p _ _ _ _ _ _ H) as D'. rewrite map_app in D'. unfold echo, echo_y in D'.
  destruct C as [(E & _) | (r & ex & qs & todo & out & l & E & _)]; rewrite E.
  - split; [exists (map cr_data pd) | eexists]; eauto.
  - rewrite flat_data_app, <- D, map_app, <- D', <- !app_assoc. eauto.
Qed.
End S.
