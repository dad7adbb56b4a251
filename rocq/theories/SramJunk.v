(** What the SRAM outputs show in cycles that follow a cycle without a read.
    The Python SRAM keeps its last output (SramGenericPRTL.py 54-60), the
    behavioural Verilog one clears it (brg_gf14_sram_generic_synopsys.v 62-66),
    a real macro shows anything.  [run_j] is the cache with arbitrary such
    values, chosen per cycle and per array. *)
From Coq Require Import NArith List Bool Lia.
From Verif Require Import Bits Params Msg Units Rtl ParamsProofs RtlLemmas.
Import ListNotations.
Open Scope N_scope.

(** What the arrays show instead of their last output: one value per tag array
    (Dpath 182) and one for the data array (Dpath 317). *)
Record junk := mkJunk { j_tag : N -> N; j_data : N }.

(** [s] with other SRAM output registers. *)
Definition set_douts (s : st) (td : N -> N) (dd : N) : st := {|
  fsm := fsm s; ctr := ctr s; mrv := mrv s; mrm := mrm s; msn := msn s; msr := msr s;
  t1 := t1 s; wp1 := wp1 s; utw1 := utw1 s; q1 := q1 s; fi1 := fi1 s; dm1 := dm1 s;
  rep := rep s; tram := tram s; tdout := td; tsr := tsr s; hsr := hsr s; wst := wst s;
  t2 := t2 s; ev2 := ev2 s; hit2 := hit2 s; fs2 := fs2 s; q2 := q2 s; wm2 := wm2 s;
  dram := dram s; ddout := dd; dsr := dsr s |}.

(** One clock edge: as [next] (Rtl.v), but an array that is not read in this
    cycle shows the junk value afterwards. *)
Definition next_j (p : params) (s : st) (i : inp) (j : junk) : st :=
  set_douts (next p s i)
    (memo (fun w => sram_rd (tram s w) (j_tag j w) (tag_val0 p s i w) (cs0_wr p s i) (tag_idx0 p s i)))
    (sram_rd (dram s) (j_data j) (cs1_val p s) (cs1_wr p s) (drow1 p s)).

Fixpoint run_j (p : params) (s : st) (l : list (inp * junk)) : st * list outp :=
  match l with
  | [] => (s, [])
  | (i, j) :: r => let '(s2, os) := run_j p (next_j p s i j) r in (s2, output p s i :: os)
  end.

(** The Verilog arrays: cleared unless read. *)
Definition zero_junk : junk := mkJunk (fun _ => 0) 0.
Definition run_v (p : params) (s : st) (is : list inp) : st * list outp :=
  run_j p s (map (fun i => (i, zero_junk)) is).

Section J.
Variable p : params.

(** [s] with other tag arrays, array outputs and stall registers *)
Definition re (s : st) (tr : N -> N -> N) (td ts : N -> N) (h : bool * N) (dd ds : N) : st := {|
  fsm := fsm s; ctr := ctr s; mrv := mrv s; mrm := mrm s; msn := msn s; msr := msr s;
  t1 := t1 s; wp1 := wp1 s; utw1 := utw1 s; q1 := q1 s; fi1 := fi1 s; dm1 := dm1 s;
  rep := rep s; tram := tr; tdout := td; tsr := ts; hsr := h; wst := wst s;
  t2 := t2 s; ev2 := ev2 s; hit2 := hit2 s; fs2 := fs2 s; q2 := q2 s; wm2 := wm2 s;
  dram := dram s; ddout := dd; dsr := ds |}.

Definition t_rwa (t : trans) : bool :=
  match t with TR_READ_REQ | TR_WRITE_REQ | TR_AMO_REQ => true | _ => false end.
Definition t_alloc (t : trans) : bool :=
  match t with TR_READ_REQ | TR_WRITE_REQ | TR_AMO_REQ | TR_INV_START | TR_FLUSH_START => true
  | _ => false end.
(** stage M2 needs the data array's output *)
Definition need_d (t : trans) (ev hit fs : bool) : bool :=
  match t with
  | TR_INVALID | TR_CACHE_INIT | TR_INV_START | TR_INV_WRITE | TR_CLEAN_HIT
  | TR_FLUSH_START | TR_FLUSH_WAIT | TR_FLUSH_WRITE => false
  | TR_FLUSH_READ => fs
  | TR_REPLAY_READ => true
  | TR_READ_REQ => ev || hit
  | _ => ev
  end.

Record agree (s : st) (tr : N -> N -> N) (td ts : N -> N) (h : bool * N) (dd ds : N) : Prop := {
  ag_ctr : ctr s < 2 ^ bw_lines p;
  ag_t : t_rwa (t1 s) = true -> ev2 s = false -> forall w, tagq (re s tr td ts h dd ds) w = tagq s w;
  ag_f : t1 s = TR_FLUSH_READ -> utw1 s = trunc (bw_lines p) (ctr s + 1) mod p_assoc p /\
         tagq (re s tr td ts h dd ds) (utw1 s) = tagq s (utw1 s);
  ag_h : wst s || ev2 s = true -> t_alloc (t1 s) = true -> h = hsr s;
  ag_d : need_d (t2 s) (ev2 s) (hit2 s) (fs2 s) = true ->
         dataq (re s tr td ts h dd ds) = dataq s;
  ag_r : forall w, tr w = tram s w
}.

Section W.
Variables (s : st) (tr : N -> N -> N) (td ts : N -> N) (h : bool * N) (dd ds : N).
Hypothesis A : agree s tr td ts h dd ds.
Let s' := re s tr td ts h dd ds.

Lemma fold_pu_ext : forall tg f g l a, (forall w, f w = g w) ->
  fold_left (pu_way p tg f) l a = fold_left (pu_way p tg g) l a.
Proof.
  intros tg f g l. induction l; intros acc H; cbn [fold_left]; auto.
  rewrite IHl by auto. f_equal. unfold pu_way. rewrite (H a). auto.
Qed.

Lemma rwa_tpe : tag_proc_en s = true -> t1 s <> TR_FLUSH_READ -> t_rwa (t1 s) = true /\ ev2 s = false.
Proof.
  unfold tag_proc_en. destruct (ev2 s); cbn; [discriminate|]. destruct (t1 s); cbn; auto; try discriminate.
Qed.

Lemma tagq_tpe : tag_proc_en s = true -> t1 s <> TR_FLUSH_READ -> forall w, tagq s' w = tagq s w.
Proof. intros T F. destruct (rwa_tpe T F). apply (ag_t _ _ _ _ _ _ _ A); auto. Qed.

Lemma j_pu : t1 s <> TR_FLUSH_READ -> pu p s' = pu p s.
Proof.
  intros F. unfold pu. change (tag_proc_en s') with (tag_proc_en s). change (is_init1 s') with (is_init1 s).
  unfold pu_compare. destruct (negb (is_init1 s) && tag_proc_en s) eqn:E; auto.
  apply andb_prop in E. change (q1 s') with (q1 s). apply fold_pu_ext. apply tagq_tpe; tauto.
Qed.

Lemma j_ent : forall w, t1 s <> TR_FLUSH_READ \/ w = utw1 s -> pu_ent s' w = pu_ent s w.
Proof.
  intros w H. unfold pu_ent, pu_entry. change (tag_proc_en s') with (tag_proc_en s).
  destruct (tag_proc_en s) eqn:E; auto.
  destruct (trans_eqb (t1 s) TR_FLUSH_READ) eqn:F.
  - assert (G : t1 s = TR_FLUSH_READ) by (destruct (t1 s); auto; discriminate F).
    destruct H as [H | ->]; [tauto|]. apply (ag_f _ _ _ _ _ _ _ A); auto.
  - apply tagq_tpe; auto. intro Q; rewrite Q in F; discriminate F.
Qed.

Lemma j_ld : forall w, t1 s <> TR_FLUSH_READ \/ w = utw1 s -> pu_ld p s' w = pu_ld p s w.
Proof.
  intros w H. pose proof (j_ent w H) as E. unfold pu_ld, line_dirty, pu_ent, pu_entry in *.
  change (tag_proc_en s') with (tag_proc_en s) in *. destruct (tag_proc_en s); auto. rewrite E; auto.
Qed.

Lemma fr_dec : {t1 s = TR_FLUSH_READ} + {t1 s <> TR_FLUSH_READ}.
Proof. destruct (t1 s); ((left; reflexivity) || (right; discriminate)). Qed.

Lemma j_hit1 : hit1 p s' = hit1 p s.
Proof.
  unfold hit1. change (is_rwi1 s') with (is_rwi1 s). change (is_amo1 s') with (is_amo1 s).
  destruct fr_dec as [F | F].
  - unfold is_rwi1, is_amo1. rewrite F. auto.
  - unfold pu_hit. rewrite j_pu; auto.
Qed.

Lemma j_hit_tpe : hit1 p s = true -> tag_proc_en s = true /\ t1 s <> TR_FLUSH_READ.
Proof.
  unfold hit1, pu_hit, pu, pu_compare. intros H.
  assert (F : t1 s <> TR_FLUSH_READ).
  { intro F. unfold is_rwi1, is_amo1 in H. rewrite F in H. discriminate H. }
  split; auto. destruct (tag_proc_en s); auto. rewrite andb_false_r in H. cbn in H.
  destruct (is_rwi1 s || is_amo1 s); discriminate H.
Qed.

Lemma j_dty : t1 s <> TR_FLUSH_READ -> is_dty1 p s' = is_dty1 p s.
Proof.
  intros F. unfold is_dty1. rewrite j_hit1.
  change (is_rwi1 s') with (is_rwi1 s). change (is_amo1 s') with (is_amo1 s).
  unfold pu_hit_way. rewrite j_pu by auto. change (rep_rd p s') with (rep_rd p s).
  rewrite !j_ld by auto. destruct (hit1 p s) eqn:E; auto.
  unfold pu_wd. rewrite tagq_tpe; auto; apply j_hit_tpe; auto.
Qed.

Lemma fr_noev : t1 s = TR_FLUSH_READ -> is_evict1 p s = false /\ is_evict1 p s' = false /\
  is_rwi1 s = false /\ is_amo1 s = false.
Proof.
  intros F. unfold is_evict1. change (is_rwi1 s') with (is_rwi1 s). change (is_amo1 s') with (is_amo1 s).
  unfold is_rwi1, is_amo1. rewrite F. auto.
Qed.

Lemma j_evict : is_evict1 p s' = is_evict1 p s.
Proof.
  destruct fr_dec as [F | F]; [destruct (fr_noev F) as (-> & -> & _); auto|].
  unfold is_evict1. rewrite j_hit1, j_dty by auto. unfold pu_inval. rewrite j_pu by auto. auto.
Qed.

Lemma j_whc : write_hit_clean p s' = write_hit_clean p s.
Proof.
  unfold write_hit_clean. change (is_rwi1 s') with (is_rwi1 s). change (t1 s') with (t1 s).
  destruct fr_dec as [F | F].
  - destruct (fr_noev F) as (_ & _ & -> & _). auto.
  - rewrite j_hit1, j_dty by auto. unfold pu_inval. rewrite j_pu by auto. auto.
Qed.

Lemma j_rep : repreq_en1 p s' = repreq_en1 p s /\ rep_wr p s' = rep_wr p s.
Proof.
  unfold rep_wr, repreq_en1, repreq_is_hit1, repreq_hit_ptr1. rewrite j_evict, j_hit1.
  change (is_rwi1 s') with (is_rwi1 s). change (is_amo1 s') with (is_amo1 s).
  change (is_init1 s') with (is_init1 s). change (rep_rd p s') with (rep_rd p s).
  destruct fr_dec as [F | F].
  - destruct (fr_noev F) as (_ & _ & -> & ->). auto.
  - unfold pu_inval, pu_hit_way. rewrite j_pu by auto. auto.
Qed.

Lemma j_hitq : t_alloc (t1 s) = true -> hitq p s' = hitq p s.
Proof.
  intros T. unfold hitq, hsr_en. change (wst s') with (wst s). change (ev2 s') with (ev2 s).
  assert (F : t1 s <> TR_FLUSH_READ) by (intro F; rewrite F in T; discriminate T).
  destruct (negb (wst s) && negb (ev2 s)) eqn:E.
  - unfold hsr_in, pu_hit, pu_inval, pu_hit_way. rewrite j_pu by auto. auto.
  - apply (ag_h _ _ _ _ _ _ _ A); auto. destruct (wst s), (ev2 s); auto; discriminate E.
Qed.

Lemma j_way : way_offset1 p s' = way_offset1 p s.
Proof.
  unfold way_offset1. rewrite j_hit1. change (t1 s') with (t1 s). change (wp1 s') with (wp1 s).
  change (rep_rd p s') with (rep_rd p s). change (utw1 s') with (utw1 s).
  destruct (t1 s) eqn:E; auto;
  try (unfold pu_inval, pu_hit_way; rewrite j_pu by (rewrite E; discriminate); reflexivity).
  rewrite j_hitq by (rewrite E; auto). auto.
Qed.

Lemma j_way_fr : t1 s <> TR_FLUSH_READ \/ way_offset1 p s = utw1 s.
Proof. destruct fr_dec as [F | F]; auto. right. unfold way_offset1. rewrite F. auto. Qed.

Lemma j_hfs : has_flush_sent1 p s' = has_flush_sent1 p s.
Proof.
  unfold has_flush_sent1. change (t1 s') with (t1 s). change (utw1 s') with (utw1 s).
  rewrite j_ld by auto. auto.
Qed.
Lemma j_nfn : no_flush_needed1 p s' = no_flush_needed1 p s.
Proof.
  unfold no_flush_needed1. change (t1 s') with (t1 s). change (utw1 s') with (utw1 s).
  rewrite j_ld by auto. auto.
Qed.

Lemma j_cs1 : cs1 p s' = cs1 p s.
Proof.
  unfold cs1. rewrite j_evict, j_hit1, j_hfs. auto.
Qed.

Lemma j_wm : write_mask1 p s' = write_mask1 p s.
Proof. unfold write_mask1. rewrite j_way, j_ent by apply j_way_fr. auto. Qed.

Lemma j_alloc : cs1_alloc p s = true -> mshr_alloc_in p s' = mshr_alloc_in p s.
Proof.
  intros H. unfold mshr_alloc_in. rewrite j_way, j_evict, j_wm, j_hitq; auto.
  unfold cs1_alloc, cs1 in H. destruct (t1 s) eqn:E; auto; try discriminate H;
  unfold is_evict1, is_rwi1, is_amo1 in H; rewrite E in H; try discriminate H.
  cbn [trans_eqb orb] in H. exfalso. revert H.
  assert (P : is_dty1 p s = false).
  { unfold is_dty1, hit1, is_rwi1, pu_hit, pu, pu_compare, pu_ld, line_dirty, is_init1, tag_proc_en.
    rewrite E. cbn. rewrite andb_false_r. auto. }
  rewrite P, !andb_false_r. cbn. discriminate.
Qed.

Lemma a_idx_tag : forall t t' i, a_idx p (mk_addr p t i 0) = a_idx p (mk_addr p t' i 0).
Proof.
  intros. unfold a_idx, mk_addr. apply N.bits_inj; intro n.
  rewrite !testbit_slice, !testbit_cat.
  replace (offw p + idxw p - offw p) with (idxw p) by lia.
  destruct (N.ltb_spec n (idxw p)); auto.
  destruct (N.ltb_spec (n + offw p) (offw p)); try lia.
  destruct (N.ltb_spec (n + offw p - offw p) (idxw p)); try lia. auto.
Qed.

Lemma ev_tpe : is_evict1 p s = true -> tag_proc_en s = true.
Proof.
  unfold is_evict1. destruct (tag_proc_en s) eqn:T; auto. intros H. exfalso. revert H.
  assert (P : hit1 p s = false).
  { unfold hit1, pu_hit, pu, pu_compare. rewrite T, andb_false_r. cbn.
    destruct (is_rwi1 s || is_amo1 s); auto. }
  assert (D : is_dty1 p s = false).
  { unfold is_dty1, pu_ld, line_dirty. rewrite P, T. destruct (is_rwi1 s), (is_amo1 s); auto. }
  rewrite D, P, !andb_false_r. destruct (is_rwi1 s), (is_amo1 s); discriminate.
Qed.

Lemma j_evmux : t1 s <> TR_CACHE_INIT -> cs1_evmux p s = true -> tagq s' (way_offset1 p s) = tagq s (way_offset1 p s).
Proof.
  intros C H. destruct fr_dec as [F | F].
  - unfold way_offset1. rewrite F. apply (ag_f _ _ _ _ _ _ _ A); auto.
  - apply tagq_tpe; auto. apply ev_tpe.
    unfold cs1_evmux, cs1 in H. destruct (t1 s), (is_evict1 p s), (hit1 p s); cbn in H; auto; try discriminate H; tauto.
Qed.

Lemma j_addr : t1 s <> TR_CACHE_INIT -> addr1_2 p s' = addr1_2 p s.
Proof.
  intros C. unfold addr1_2, evict_addr1. unfold cs1_evmux at 1. rewrite j_cs1, j_way.
  change (snd (fst (cs1 p s))) with (cs1_evmux p s).
  destruct (cs1_evmux p s) eqn:E; auto. rewrite j_evmux; auto.
Qed.

Lemma j_q12 : t1 s <> TR_CACHE_INIT -> q1_2 p s' = q1_2 p s.
Proof. intros. unfold q1_2. rewrite j_addr; auto. Qed.

Lemma ci_dec : {t1 s = TR_CACHE_INIT} + {t1 s <> TR_CACHE_INIT}.
Proof. destruct (t1 s); ((left; reflexivity) || (right; discriminate)). Qed.

Lemma j_drow : drow1 p s' = drow1 p s.
Proof.
  unfold drow1. rewrite j_way. destruct ci_dec as [C | C].
  - unfold addr1_2, cs1_evmux, cs1. change (t1 s') with (t1 s). rewrite C. cbn [fst snd].
    unfold evict_addr1. f_equal. apply a_idx_tag.
  - rewrite j_addr; auto.
Qed.

Lemma j_trans0 : forall i, trans0 p s' i = trans0 p s i.
Proof.
  intros. unfold trans0, prev_flush_done. rewrite j_whc, j_hfs, j_nfn. reflexivity.
Qed.
Lemma j_fsm : forall i, fsm_next p s' i = fsm_next p s i.
Proof. intros. unfold fsm_next, prev_flush_done. rewrite j_hfs, j_nfn. reflexivity. Qed.
Lemma j_stall : forall i, stall01 p s' i = stall01 p s i.
Proof. intros. rewrite !stall01_eq, j_evict. reflexivity. Qed.

Lemma j_out : forall i, output p s' i = output p s i.
Proof.
  intros i. unfold output. f_equal.
  - unfold req_rdy, mshr_full, alloc_en, cs1_alloc. rewrite j_whc, j_stall, j_cs1. reflexivity.
  - change (resp_en s' i) with (resp_en s i).
    destruct (resp_en s i) eqn:E; auto. f_equal. unfold resp_out.
    assert (D : rdmux2 s' i = rdmux2 s i); [|rewrite D; reflexivity].
    unfold rdmux2. change (cs2_rdmux s' i) with (cs2_rdmux s i).
    destruct (cs2_rdmux s i) eqn:M; auto. apply (ag_d _ _ _ _ _ _ _ A).
    unfold resp_en, cs2_rdmux, cs2 in *.
    destruct (t2 s); cbn in *; auto; try discriminate;
    destruct (negb (i_mreq_rdy i) || negb (i_resp_rdy i)); cbn in *; try discriminate;
    destruct (ev2 s); cbn in *; auto; destruct (hit2 s); cbn in *; auto; discriminate.
  - change (memreq_en s' i) with (memreq_en s i).
    destruct (memreq_en s i) eqn:E; auto. f_equal. unfold memreq_out.
    assert (D : rdmux2 s' i = rdmux2 s i); [|rewrite D; reflexivity].
    unfold rdmux2. change (cs2_rdmux s' i) with (cs2_rdmux s i).
    destruct (cs2_rdmux s i) eqn:M; auto. apply (ag_d _ _ _ _ _ _ _ A).
    unfold memreq_en, cs2_rdmux, cs2 in *.
    destruct (t2 s); cbn in *; auto; try discriminate;
    destruct (negb (i_mreq_rdy i) || negb (i_resp_rdy i)); cbn in *; try discriminate;
    destruct (fs2 s); cbn in *; try discriminate; auto;
    destruct (ev2 s); cbn in *; auto; destruct (hit2 s); cbn in *; auto; discriminate.
Qed.

(** *** the M0 side *)
Lemma j_cs0 : forall i, cs0 p s' i = cs0 p s i.
Proof. intros. unfold cs0. rewrite j_trans0. reflexivity. Qed.
Lemma j_upd : forall i, upd_way_idx0 p s' i = upd_way_idx0 p s i.
Proof. intros. unfold upd_way_idx0. rewrite j_trans0. reflexivity. Qed.
Lemma j_ctrway : forall i, ctr_way0 p s' i = ctr_way0 p s i.
Proof. intros. unfold ctr_way0. rewrite j_upd. reflexivity. Qed.
Lemma j_isctr : forall i, is_ctr_way0 p s' i = is_ctr_way0 p s i.
Proof. intros. unfold is_ctr_way0. rewrite j_trans0. reflexivity. Qed.
Lemma j_utw : forall i, upd_tag_way0 p s' i = upd_tag_way0 p s i.
Proof. intros. unfold upd_tag_way0. rewrite j_isctr, j_ctrway. reflexivity. Qed.
Lemma j_initidx : forall i, init_idx0 p s' i = init_idx0 p s i.
Proof. intros. unfold init_idx0. rewrite j_upd. reflexivity. Qed.
Lemma j_q0 : forall i, q0 p s' i = q0 p s i.
Proof.
  intros. unfold q0, addr0, len0, data0, is_amo0, cs0_admux, cs0_wdmux. rewrite j_cs0, j_trans0. reflexivity.
Qed.

Lemma trans0_clean : forall i, trans0 p s i = TR_CLEAN_HIT -> t1 s <> TR_FLUSH_READ.
Proof.
  intros i H F. unfold trans0, write_hit_clean, is_rwi1 in H. rewrite F in H. cbn [trans_eqb orb andb] in H.
  revert H. destruct (fsm s); try discriminate;
  repeat (match goal with |- context [if ?b then _ else _] => destruct b end); discriminate.
Qed.

Lemma j_tagval : forall i w, tag_val0 p s' i w = tag_val0 p s i w.
Proof.
  intros. unfold tag_val0. rewrite j_isctr, j_ctrway, j_trans0.
  destruct (is_ctr_way0 p s i); auto.
  destruct (trans0 p s i) eqn:E; auto. unfold pu_hit_way. rewrite j_pu; auto.
  eapply trans0_clean; eauto.
Qed.
Lemma j_idx0 : forall i, tag_idx0 p s' i = tag_idx0 p s i.
Proof.
  intros. unfold tag_idx0, addr0, cs0_idxsel, cs0_admux. rewrite j_cs0, j_initidx. reflexivity.
Qed.

Lemma inv_mask : forall d t, N.land (mk_te p false d t) (wben_val p) = 0.
Proof.
  intros. unfold wben_val, mk_te. apply N.bits_inj; intro n.
  rewrite N.land_spec, !testbit_cat, N.bits_0.
  destruct (N.ltb_spec n (tagw p)); [rewrite N.bits_0; apply andb_false_r|].
  destruct (N.ltb_spec (n - tagw p) (dtyw p)); [rewrite N.bits_0; apply andb_false_r|].
  unfold b2n at 1. rewrite N.bits_0. auto.
Qed.

Lemma mwrite_mask : forall o a b m, N.land a m = N.land b m -> mwrite o a m = mwrite o b m.
Proof. intros. unfold mwrite. congruence. Qed.

Lemma j_wdata : forall i w, tag_val0 p s i w && cs0_wr p s i = true ->
  N.land (tag_wdata0 p s' i) (cs0_wben p s i) = N.land (tag_wdata0 p s i) (cs0_wben p s i).
Proof.
  intros i w H. apply andb_prop in H. destruct H as [_ H].
  assert (AD : addr0 p s' i = addr0 p s i) by (unfold addr0, cs0_admux; rewrite j_cs0; reflexivity).
  assert (LE : len0 p s' i = len0 p s i) by (unfold len0, cs0_admux; rewrite j_cs0; reflexivity).
  assert (INV : cs0_cmd p s i = TC_INV -> cs0_wben p s i = wben_val p).
  { unfold cs0_cmd, cs0_wben, cs0. destruct (trans0 p s i); cbn; intro Q; auto; discriminate Q. }
  assert (CM : cs0_cmd p s' i = cs0_cmd p s i) by (unfold cs0_cmd; rewrite j_cs0; auto).
  destruct (cs0_cmd p s i) eqn:C.
  6: { rewrite INV by auto. unfold tag_wdata0, new_entry0. rewrite CM, C. cbn [update_tag fst snd].
       rewrite !inv_mask. auto. }
  all: f_equal; unfold tag_wdata0, tag_tag0, new_entry0; rewrite CM, C, AD, LE;
       unfold cs0_tagsel; rewrite j_cs0; change (snd (fst (cs0 p s i))) with (cs0_tagsel p s i);
       change (msr s') with (msr s).
  - exfalso. revert H C. unfold cs0_wr, cs0_cmd, cs0. destruct (trans0 p s i); cbn; intros X Y; discriminate.
  - cbn [update_tag fst snd]. auto.
  - (* write hit *)
    assert (E : trans0 p s i = TR_CLEAN_HIT).
    { revert C. unfold cs0_cmd, cs0. destruct (trans0 p s i); cbn; intros X; auto; discriminate. }
    pose proof (trans0_clean i E) as F.
    assert (U : pu_ent s' (upd_way_mux0 p s' i) = pu_ent s (upd_way_mux0 p s i)).
    { rewrite j_ent by auto. f_equal. unfold upd_way_mux0, cs0_tagsel, cs0. rewrite j_trans0, E. cbn.
      unfold pu_hit_way. rewrite j_pu; auto. }
    rewrite U. auto.
  - assert (T : cs0_tagsel p s i = false).
    { revert C. unfold cs0_cmd, cs0_tagsel, cs0. destruct (trans0 p s i); cbn; intros X; auto; discriminate. }
    rewrite T. auto.
  - assert (T : cs0_tagsel p s i = false).
    { revert C. unfold cs0_cmd, cs0_tagsel, cs0. destruct (trans0 p s i); cbn; intros X; auto; discriminate. }
    rewrite T. auto.
  - (* flush *)
    assert (E : trans0 p s i = TR_FLUSH_WRITE \/ trans0 p s i = TR_REPLAY_FLUSH).
    { revert C. unfold cs0_cmd, cs0. destruct (trans0 p s i); cbn; intros X; auto; discriminate. }
    assert (T : cs0_tagsel p s i = true).
    { unfold cs0_tagsel, cs0. destruct E as [E | E]; rewrite E; auto. }
    assert (U : pu_ent s' (upd_way_mux0 p s' i) = pu_ent s (upd_way_mux0 p s i)).
    { unfold upd_way_mux0. unfold cs0_tagsel at 1. rewrite j_cs0.
      change (snd (fst (cs0 p s i))) with (cs0_tagsel p s i). rewrite T, j_utw.
      apply j_ent. destruct fr_dec as [F | F]; auto. right.
      destruct (ag_f _ _ _ _ _ _ _ A F) as [-> _].
      unfold upd_tag_way0, is_ctr_way0, ctr_way0, upd_way_idx0.
      destruct E as [E | E]; rewrite E; auto. }
    rewrite U. auto.
Qed.

Lemma j_tram : forall i j w, tram (next_j p s' i j) w = tram (next p s i) w.
Proof.
  intros. unfold next_j, set_douts. cbn [tram next]. rewrite !memo_eq.
  rewrite j_tagval, j_idx0. unfold cs0_wr at 1, cs0_wben at 1. rewrite j_cs0.
  change (snd (fst (fst (fst (fst (cs0 p s i)))))) with (cs0_wr p s i).
  change (fst (fst (fst (fst (fst (fst (fst (cs0 p s i)))))))) with (cs0_wben p s i).
  change (tram s') with tr. rewrite (ag_r _ _ _ _ _ _ _ A).
  unfold sram_wr. destruct (tag_val0 p s i w && cs0_wr p s i) eqn:E; auto.
  rewrite (mwrite_mask _ _ _ _ (j_wdata i w E)). auto.
Qed.

Lemma j_next : forall i j, exists tr' td' ts' h' dd' ds',
  next_j p s' i j = re (next p s i) tr' td' ts' h' dd' ds' /\
  agree (next p s i) tr' td' ts' h' dd' ds'.
Proof.
  intros i j.
  exists (tram (next_j p s' i j)), (tdout (next_j p s' i j)), (tagq s'), (hitq p s'),
    (ddout (next_j p s' i j)), (dataq s').
  assert (RE0 : reg_en0 p s' i = reg_en0 p s i) by (unfold reg_en0; rewrite j_stall; auto).
  assert (C0 : is_cinit0 p s' i = is_cinit0 p s i) by (unfold is_cinit0; rewrite j_trans0; auto).
  assert (RE1 : reg_en1 p s' i = reg_en1 p s i) by (unfold reg_en1; rewrite j_stall, j_evict, C0; auto).
  assert (CE1 : creg_en1 p s' i = creg_en1 p s i) by (unfold creg_en1; rewrite RE1, C0; auto).
  assert (AE : alloc_en p s' i = alloc_en p s i).
  { unfold alloc_en, cs1_alloc. rewrite j_stall, j_cs1. auto. }
  assert (DE : dealloc_en p s' i = dealloc_en p s i).
  { unfold dealloc_en, cs0_dealloc. rewrite j_stall, j_cs0. auto. }
  assert (CT : ctr_en p s' i = ctr_en p s i) by (unfold ctr_en; rewrite j_trans0; auto).
  assert (MA : (if alloc_en p s i then mshr_alloc_in p s' else msr s') =
               (if alloc_en p s i then mshr_alloc_in p s else msr s)).
  { destruct (alloc_en p s i) eqn:E; auto. apply j_alloc. unfold alloc_en in E. apply andb_prop in E. tauto. }
  assert (RP : (if rep_en1 p s' i then upd (rep s') (idx1 p s') (rep_wr p s') else rep s') =
               (if rep_en1 p s i then upd (rep s) (idx1 p s) (rep_wr p s) else rep s)).
  { unfold rep_en1. destruct j_rep as [-> ->]. reflexivity. }
  assert (Q2 : (if reg_en2 s i then q1_2 p s' else q2 s') = (if reg_en2 s i then q1_2 p s else q2 s)).
  { destruct (reg_en2 s i) eqn:E; auto. apply j_q12. intro C. unfold reg_en2, is_cinit1 in E.
    rewrite C in E. cbn in E. rewrite andb_false_r in E. discriminate E. }
  assert (DR : dram (next p s' i) = dram (next p s i)).
  { cbn [next dram]. rewrite j_drow. unfold cs1_val, cs1_wr, dwben1, cs1_wben. rewrite j_cs1. reflexivity. }
  split.
  - assert (G : next p s' i = re (next p s i) (tram (next p s' i)) (tdout (next p s' i)) (tagq s') (hitq p s')
                 (ddout (next p s' i)) (dataq s')).
    { unfold re. rewrite <- DR. cbn [fsm ctr mrv mrm msn msr t1 wp1 utw1 q1 fi1 dm1 rep tram tdout tsr hsr wst
       t2 ev2 hit2 fs2 q2 wm2 dram ddout dsr next].
      unfold next.
      rewrite RE0, RE1, CE1, AE, DE, CT, MA, RP, j_fsm, j_trans0, j_utw, j_q0, j_initidx, j_evict, j_hit1, j_hfs, j_wm.
      change (reg_en2 s' i) with (reg_en2 s i). rewrite Q2. reflexivity. }
    unfold next_j at 1. rewrite G at 1. reflexivity.
  - set (n' := re (next p s i) (tram (next_j p s' i j)) (tdout (next_j p s' i j)) (tagq s') (hitq p s')
      (ddout (next_j p s' i j)) (dataq s')).
    assert (OS : ostall2 s' i = ostall2 s i) by reflexivity.
    (* after a stall *)
    assert (ST : ostall2 s i = true -> (t1 (next p s i) = t1 s \/ t1 (next p s i) = TR_CACHE_INIT) /\
       (t1 (next p s i) = t1 s -> utw1 (next p s i) = utw1 s \/ t1 s = TR_CACHE_INIT) /\
       ctr (next p s i) = ctr s /\
       ((ev2 (next p s i) = ev2 s /\ t2 (next p s i) = t2 s /\ hit2 (next p s i) = hit2 s /\ fs2 (next p s i) = fs2 s) \/ (t1 s = TR_CACHE_INIT /\ t2 (next p s i) = TR_CACHE_INIT)) /\
       (forall w, tagq (next p s i) w = tagq s w) /\ (forall w, tagq n' w = tagq s' w) /\
       hsr (next p s i) = hitq p s /\ dataq (next p s i) = dataq s /\ dataq n' = dataq s').
    { intros O. assert (S1 : stall01 p s i = true) by (rewrite stall01_eq, O, orb_true_r; auto).
      split; [|split; [|split; [|split]]].
      - cbn [next t1]. unfold creg_en1, reg_en1, is_cinit0. rewrite S1. cbn [negb andb orb].
        destruct (trans_eqb (trans0 p s i) TR_CACHE_INIT) eqn:E; auto. right. destruct (trans0 p s i); auto; discriminate E.
      - cbn [next t1 utw1]. unfold creg_en1, reg_en1, is_cinit0. rewrite S1. cbn [negb andb orb].
        destruct (trans_eqb (trans0 p s i) TR_CACHE_INIT) eqn:E; auto. intros <-. right.
        destruct (trans0 p s i); auto; discriminate E.
      - cbn [next ctr]. unfold reg_en0. rewrite S1. auto.
      - cbn [next ev2 t2 hit2 fs2]. unfold creg_en2, reg_en2, is_cinit1. rewrite O. cbn [negb andb orb].
        destruct (trans_eqb (t1 s) TR_CACHE_INIT) eqn:E; auto. right.
        destruct (t1 s); auto; discriminate E.
      - unfold tagq at 1 3, dataq at 1 3. cbn [next n' re wst tsr dsr hsr]. rewrite O. auto. }
    constructor.
    + cbn [next ctr]. destruct (reg_en0 p s i && ctr_en p s i); [|apply (ag_ctr _ _ _ _ _ _ _ A)].
      unfold ctr_dec. rewrite trunc_mod. apply N.mod_lt. apply N.pow_nonzero; discriminate.
    + intros T E w. destruct (ostall2 s i) eqn:O.
      * destruct (ST eq_refl) as (K1 & _ & _ & K4 & K5 & K6 & _). fold n'. rewrite K5, K6.
        destruct K1 as [K1 | K1]; rewrite K1 in T; [|discriminate T].
        apply (ag_t _ _ _ _ _ _ _ A); auto.
        destruct K4 as [(K4 & _) | (K4 & _)]; [congruence|]. rewrite K4 in T. discriminate T.
      * pose proof (an_ev2 p s i O) as EV. rewrite EV in E.
        pose proof (an_t1 p s i O E) as T1. rewrite T1 in T.
        unfold tagq. cbn [re wst tdout next next_j set_douts]. rewrite O, !memo_eq.
        rewrite j_tagval, j_idx0. unfold cs0_wr at 1. rewrite j_cs0.
        change (snd (fst (fst (fst (fst (cs0 p s i)))))) with (cs0_wr p s i).
        change (tram s') with tr. rewrite (ag_r _ _ _ _ _ _ _ A).
        assert (V : tag_val0 p s i w = true /\ cs0_wr p s i = false).
        { unfold tag_val0, is_ctr_way0, cs0_wr, cs0. destruct (trans0 p s i); cbn in T |- *; auto; discriminate T. }
        destruct V as [V1 V2]. unfold sram_rd. rewrite V1, V2. auto.
    + intros F. destruct (ostall2 s i) eqn:O.
      * destruct (ST eq_refl) as (K1 & K2 & K3 & K4 & K5 & K6 & _). fold n'.
        destruct K1 as [K1 | K1]; [|rewrite K1 in F; discriminate F].
        destruct (K2 K1) as [K2' | K2']; [|rewrite K1, K2' in F; discriminate F].
        rewrite K5, K6, K2', K3. apply (ag_f _ _ _ _ _ _ _ A). congruence.
      * destruct (is_evict1 p s) eqn:E.
        { exfalso. destruct (trans_eqb (trans0 p s i) TR_CACHE_INIT) eqn:C.
          - revert F. cbn [next t1]. unfold creg_en1, reg_en1, is_cinit0. rewrite stall01_eq, E, C. cbn.
            intro F. rewrite F in C. discriminate C.
          - revert F. cbn [next t1]. unfold creg_en1, reg_en1, is_cinit0. rewrite stall01_eq, E, C. cbn.
            intro F. apply (evict_not_flush p s E F). }
        pose proof (an_t1 p s i O E) as T1. rewrite T1 in F.
        rewrite (an_utw1 p s i O E).
        assert (UT : upd_tag_way0 p s i = ctr s mod p_assoc p).
        { unfold upd_tag_way0, is_ctr_way0, ctr_way0, upd_way_idx0. rewrite F. auto. }
        split.
        -- rewrite UT, (an_ctr p s i O E). unfold ctr_en. rewrite F. cbn [trans_eqb]. rewrite orb_true_r.
           f_equal. unfold ctr_dec. rewrite !trunc_mod.
           pose proof (ag_ctr _ _ _ _ _ _ _ A) as CL. set (m := 2 ^ bw_lines p) in *. clearbody m.
           rewrite N.add_mod_idemp_l by lia.
           replace (ctr s + (m - 1) + 1) with (ctr s + 1 * m) by lia.
           rewrite N.mod_add by lia. symmetry. apply N.mod_small; auto.
        -- rewrite UT. unfold tagq. cbn [re wst tdout next next_j set_douts]. rewrite O, !memo_eq.
           rewrite j_tagval, j_idx0. unfold cs0_wr at 1. rewrite j_cs0.
           change (snd (fst (fst (fst (fst (cs0 p s i)))))) with (cs0_wr p s i).
           change (tram s') with tr. rewrite (ag_r _ _ _ _ _ _ _ A).
           assert (V : tag_val0 p s i (ctr s mod p_assoc p) = true /\ cs0_wr p s i = false).
           { unfold tag_val0, is_ctr_way0, ctr_way0, upd_way_idx0, cs0_wr, cs0. rewrite F. cbn.
             rewrite N.eqb_refl. auto. }
           destruct V as [V1 V2]. unfold sram_rd. rewrite V1, V2. auto.
    + intros W T. cbn [next hsr]. apply j_hitq. destruct (ostall2 s i) eqn:O.
      * destruct (ST eq_refl) as (K1 & _). destruct K1 as [K1 | K1]; rewrite K1 in T; [auto | discriminate T].
      * rewrite (an_wst p s i O) in W. cbn [orb] in W. rewrite (an_ev2 p s i O) in W.
        revert T. cbn [next t1]. unfold creg_en1, reg_en1, is_cinit0. rewrite stall01_eq, W. cbn.
        destruct (trans_eqb (trans0 p s i) TR_CACHE_INIT) eqn:C; auto.
        destruct (trans0 p s i); try discriminate C. intro T; discriminate T.
    + intros D. destruct (ostall2 s i) eqn:O.
      * destruct (ST eq_refl) as (_ & _ & _ & K4 & _ & _ & _ & K5 & K6). fold n'. rewrite K5, K6.
        apply (ag_d _ _ _ _ _ _ _ A). destruct K4 as [(K1 & K2 & K3 & K4) | (_ & K4)].
        -- rewrite <- K1, <- K2, <- K3, <- K4. auto.
        -- rewrite K4 in D. discriminate D.
      * rewrite (an_t2 p s i O), (an_ev2 p s i O), (an_hit2 p s i O), (an_fs2 p s i O) in D.
        unfold dataq. cbn [re wst ddout next next_j set_douts]. rewrite O.
        rewrite j_drow. unfold cs1_val at 1, cs1_wr at 1. rewrite j_cs1.
        change (snd (fst (fst (fst (cs1 p s))))) with (cs1_val p s).
        change (snd (fst (fst (fst (fst (cs1 p s)))))) with (cs1_wr p s).
        change (dram s') with (dram s).
        assert (V : cs1_val p s = true /\ cs1_wr p s = false).
        { clear - D. unfold cs1_val, cs1_wr, cs1.
          assert (E : is_evict1 p s = true -> is_rwi1 s = true \/ is_amo1 s = true).
          { unfold is_evict1. destruct (is_rwi1 s), (is_amo1 s); auto; discriminate. }
          unfold is_rwi1, is_amo1 in E.
          destruct (t1 s) eqn:T; cbn [need_d] in D; try discriminate D;
          destruct (is_evict1 p s); cbn in *; auto; try discriminate D;
          try (destruct (E eq_refl) as [X | X]; discriminate X).
          - rewrite D. auto. }
        destruct V as [V1 V2]. unfold sram_rd. rewrite V1, V2. auto.
    + intros w. apply j_tram.
Qed.
End W.

Lemma run_j_agree : forall l s tr td ts h dd ds, agree s tr td ts h dd ds ->
  snd (run_j p (re s tr td ts h dd ds) l) = snd (run p s (map fst l)).
Proof.
  induction l as [|[i j] l IH]; intros s tr td ts h dd ds A; auto.
  cbn [run_j map fst run]. unfold step.
  destruct (j_next _ _ _ _ _ _ _ A i j) as (tr' & td' & ts' & h' & dd' & ds' & E & A').
  rewrite E. pose proof (IH _ _ _ _ _ _ _ A') as H.
  destruct (run_j p (re (next p s i) tr' td' ts' h' dd' ds') l) as [u os].
  destruct (run p (next p s i) (map fst l)) as [v os2].
  cbn [snd] in *. rewrite H, (j_out _ _ _ _ _ _ _ A). auto.
Qed.

Lemma reset_agree : forall s, wf_params p -> reset_state p s ->
  agree s (tram s) (tdout s) (tsr s) (hsr s) (ddout s) (dsr s).
Proof.
  intros s W R. constructor; auto.
  - destruct R as (_ & -> & _). rewrite <- (total_pow p W). pose proof (N.pow_nonzero 2 (bw_lines p)). rewrite <- (total_pow p W) in H. lia.
  - intros F. destruct R as (_ & _ & _ & _ & _ & _ & T & _). rewrite T in F. discriminate F.
Qed.

Lemma sram_junk : forall s l, wf_params p -> reset_state p s ->
  snd (run_j p s l) = snd (run p s (map fst l)).
Proof.
  intros s l W R. pose proof (run_j_agree l _ _ _ _ _ _ _ (reset_agree s W R)) as H.
  rewrite <- H. destruct s; reflexivity.
Qed.

Lemma sram_verilog : forall s is, wf_params p -> reset_state p s ->
  snd (run_v p s is) = snd (run p s is).
Proof.
  intros. unfold run_v. rewrite sram_junk by auto. rewrite map_map. cbn [fst]. rewrite map_id. auto.
Qed.
End J.
