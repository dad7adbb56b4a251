(** C70: what the client knows is so. *)
From Coq Require Import NArith List Bool Lia.
From Verif Require Import Bits Params Msg Units Rtl Mem Spec System Traffic Hide Tl ParamsProofs UnitProofs ViewDefs ViewProofs MetaProofs InitSpec Init.
Import ListNotations.
Open Scope N_scope.

Section I2.
Variable p : params.
Hypothesis W : wf_params p.
Hypothesis A1 : p_assoc p = 1.

Record kinv (k : know) (c : cst) : Prop := mkKi {
  kv_rep : forall i, cr c i = 0;
  kv_line : forall i, i < nblocks p -> k_line k i = if lval p c 0 i then Some (lno p c i 0) else None;
  kv_byte : forall a v, k_byte k a = Some v -> a < 2 ^ p_abw p /\ lval p c 0 (a_idx p a) = true /\
              ltag p c 0 (a_idx p a) = a_tag p a /\ lbyte p c 0 (a_idx p a) (a_off p a) = v
}.

Lemma zero_way : 0 < p_assoc p.
Proof. rewrite A1. reflexivity. Qed.
Lemma pu1 : forall c r, tl_pu p c r =
  (te_val p (tl_ent p c r 0) && (te_tag p (tl_ent p c r 0) =? a_tag p (cq_addr r)),
   line_dirty p true (tl_ent p c r 0) && negb (te_val p (tl_ent p c r 0)) && (te_tag p (tl_ent p c r 0) =? a_tag p (cq_addr r)), 0).
Proof.
  intros c r. unfold tl_pu, pu_compare. cbn [negb andb]. rewrite A1. change (range 1) with [0]. cbn [fold_left]. unfold pu_way.
  destruct (te_val p (tl_ent p c r 0) && (te_tag p (tl_ent p c r 0) =? a_tag p (cq_addr r)));
  destruct (line_dirty p true (tl_ent p c r 0) && negb (te_val p (tl_ent p c r 0)) && (te_tag p (tl_ent p c r 0) =? a_tag p (cq_addr r))); auto.
Qed.
Lemma hit1w : forall c r, tl_hit p c r = lval p c 0 (a_idx p (cq_addr r)) && (ltag p c 0 (a_idx p (cq_addr r)) =? a_tag p (cq_addr r)).
Proof. intros c r. unfold tl_hit. rewrite pu1. reflexivity. Qed.
Lemma hw1w : forall c r, tl_hw p c r = 0.
Proof. intros c r. unfold tl_hw. rewrite pu1. reflexivity. Qed.
Lemma way1w : forall c r, (forall i, cr c i = 0) -> tl_way p c r = 0.
Proof. intros c r Z. unfold tl_way, tl_rep. rewrite !hw1w, Z. destruct (tl_isamo r), (tl_hit p c r), (tl_inval p c r); auto. Qed.
Lemma crep1w : forall c r, (forall i, cr c i = 0) -> forall i, tl_crep p c r i = 0.
Proof.
  intros c r Z i. unfold tl_crep, tl_rep', repl_policy. rewrite A1. change (1 =? 2) with false. cbn iota.
  destruct (tl_rep_en p c r); auto. unfold upd. destruct (i =? _), (tl_isamo r); auto.
Qed.

Lemma there_hit : forall k c r, kinv k c -> cq_addr r < 2 ^ p_abw p -> there p k r = tl_hit p c r.
Proof.
  intros k c r K A. rewrite hit1w. unfold there, set_of. rewrite (line_set p W), (kv_line k c K), (line_eq p W) by (auto; apply a_idx_lt; auto).
  destruct (lval p c 0 (a_idx p (cq_addr r))); auto. cbn [andb]. unfold lno.
  destruct (N.eqb_spec (ltag p c 0 (a_idx p (cq_addr r))) (a_tag p (cq_addr r))) as [->|N]; [apply N.eqb_refl|].
  apply N.eqb_neq. intros E. apply N. apply (lno_inj p W) in E. auto.
Qed.

Lemma testbit_slice_slice : forall L o n j, j + 8 <= n -> slice (slice L o (o + n)) j (j + 8) = slice L (o + j) (o + j + 8).
Proof.
  intros L o n j H. apply N.bits_inj. intro b. rewrite !testbit_slice.
  replace (o + j + 8 - (o + j)) with 8 by lia. replace (j + 8 - j) with 8 by lia. replace (o + n - o) with n by lia.
  destruct (N.ltb_spec b 8); cbn [andb]; auto. destruct (N.ltb_spec (b + j) n); try lia. cbn [andb]. f_equal. lia.
Qed.

(** one line is (re)written *)
Lemma learn_ok : forall k c c' r d, kinv k c -> cq_addr r < 2 ^ p_abw p ->
  let i := a_idx p (cq_addr r) in let off := a_off p (cq_addr r) in
  off + size p r <= 2 ^ offw p ->
  (forall i', i' < nblocks p -> i' <> i -> ct c' 0 i' = ct c 0 i') ->
  (forall i' o, i' < nblocks p -> i' <> i -> lbyte p c' 0 i' o = lbyte p c 0 i' o) ->
  (forall j, cr c' j = 0) ->
  lval p c' 0 i = true -> ltag p c' 0 i = a_tag p (cq_addr r) ->
  (forall o, o < 2 ^ offw p -> off <= o -> o < off + size p r -> lbyte p c' 0 i o = gb d (o - off)) ->
  (forall o, o < 2 ^ offw p -> o < off \/ off + size p r <= o -> tl_hit p c r = true -> lbyte p c' 0 i o = lbyte p c 0 i o) ->
  kinv (learn p k r d) c'.
Proof.
  intros k c c' r d K A i off FIT CT CD CR V T B1 B2. constructor; auto; cbn [learn k_line k_byte].
  - intros j Hj. unfold set_of. rewrite (line_set p W) by auto. fold i. destruct (N.eqb_spec j i) as [->|N].
    + rewrite V, (line_eq p W) by auto. unfold lno. rewrite T. auto.
    + rewrite (kv_line k c K j Hj). unfold lval, lno, ltag. rewrite CT by auto. auto.
  - intros a v. unfold byte_of. destruct ((cq_addr r <=? a) && (a <? cq_addr r + size p r)) eqn:R.
    + intros E. injection E as E. apply andb_prop in R. destruct R as [R1 R2]. apply N.leb_le in R1. apply N.ltb_lt in R2.
      destruct (addr_add p W (cq_addr r) (a - cq_addr r) A) as (X1 & X2 & X3 & X4); [fold off; lia|].
      replace (cq_addr r + (a - cq_addr r)) with a in * by lia. rewrite X2, X3, X4. fold i off. repeat (split; auto).
      rewrite B1 by lia. unfold gb. rewrite <- E. replace (off + (a - cq_addr r) - off) with (a - cq_addr r) by lia. auto.
    + destruct ((set_of p a =? set_of p (cq_addr r)) && negb (line_of p a =? line_of p (cq_addr r))) eqn:S; [discriminate|].
      intros E. destruct (kv_byte k c K a v E) as (H1 & H2 & H3 & H4). split; auto.
      unfold set_of in S. rewrite !(line_set p W), !(line_eq p W) in S by auto. fold i in S.
      destruct (N.eqb_spec (a_idx p a) i) as [EI|NI].
      * cbn [andb] in S. apply negb_false_iff, N.eqb_eq in S. rewrite EI in *. apply (lno_inj p W) in S.
        assert (O : a_off p a < off \/ off + size p r <= a_off p a).
        { apply andb_false_iff in R. pose proof (addr_split p W a H1) as Q1. pose proof (addr_split p W (cq_addr r) A) as Q2.
          rewrite EI in Q1. rewrite S in Q1. fold i in Q2. rewrite <- S in Q2 at 1. 
          destruct R as [R|R]; [apply N.leb_gt in R | apply N.ltb_ge in R]; fold off in Q2; rewrite S in *; lia. }
        assert (HT : tl_hit p c r = true).
        { rewrite hit1w. fold i. rewrite H2, H3, S, N.eqb_refl. auto. }
        split; [auto|]. split; [rewrite S; exact T|]. rewrite B2; auto. apply a_off_lt.
      * assert (HI : a_idx p a < nblocks p) by (apply a_idx_lt; auto).
        split; [|split].
        -- unfold lval. rewrite CT by auto. auto.
        -- unfold ltag. rewrite CT by auto. auto.
        -- rewrite CD by auto. auto.
Qed.
Lemma ent1 : forall c r, tl_ent p c r 0 = ct c 0 (a_idx p (cq_addr r)).
Proof. reflexivity. Qed.

Lemma size_req : forall r, cq_type r <> T_INIT -> size p r = req_bytes p r.
Proof. intros r H. unfold size. apply N.eqb_neq in H. rewrite H. auto. Qed.

Lemma slice_low : forall L o n j, 8 * j + 8 <= n -> gb (slice L o (o + n)) j = slice L (o + 8 * j) (o + 8 * j + 8).
Proof. intros. unfold gb. apply testbit_slice_slice. auto. Qed.

(** a READ returns the bytes of the line *)
Lemma read_bytes : forall r L o, wf_req p r -> wf_read p r -> a_off p (cq_addr r) <= o -> o < a_off p (cq_addr r) + req_bytes p r ->
  gb (tl_read p r L) (o - a_off p (cq_addr r)) = gb L o.
Proof.
  intros r L o WF WR H1 H2. destruct (read_geo p W r WF WR) as [_ RG]. rewrite RG, slice_low by lia.
  unfold gb. f_equal; lia.
Qed.
Lemma read_lt : forall r L, wf_req p r -> wf_read p r -> tl_read p r L < 2 ^ (8 * req_bytes p r).
Proof.
  intros r L WF WR. destruct (read_geo p W r WF WR) as [_ RG]. rewrite RG.
  match goal with |- slice L ?a ?b < _ => pose proof (slice_lt L a b) as H; replace (b - a) with (8 * req_bytes p r) in H by lia; exact H end.
Qed.
Lemma known_byte : forall k c r L a v v', kinv k c -> wf_req p r -> wf_read p r -> cd c (tl_row p r 0) = L ->
  tl_hit p c r = true -> k_byte k a = Some v -> byte_of p r (tl_read p r L) a = Some v' -> v' = v.
Proof.
  intros k c r L a v v' K WF WR EL HT KB. pose proof WF as (A & _). pose proof WR as (TY & _).
  unfold byte_of. rewrite size_req by (rewrite TY; discriminate).
  destruct ((cq_addr r <=? a) && (a <? cq_addr r + req_bytes p r)) eqn:R; [|discriminate]. intros E.
  assert (E' : gb (tl_read p r L) (a - cq_addr r) = v') by (unfold gb; injection E; auto). clear E.
  apply andb_prop in R. destruct R as [R1 R2]. apply N.leb_le in R1. apply N.ltb_lt in R2.
  destruct (read_geo p W r WF WR) as [FIT _].
  destruct (addr_add p W (cq_addr r) (a - cq_addr r) A) as (X1 & X2 & X3 & X4); [lia|].
  replace (cq_addr r + (a - cq_addr r)) with a in * by lia.
  destruct (kv_byte k c K a v KB) as (_ & _ & _ & H4). rewrite <- H4, <- E', X3, X4. unfold lbyte. fold (tl_row p r 0). rewrite EL.
  rewrite <- (read_bytes r L (a_off p (cq_addr r) + (a - cq_addr r)) WF WR) by lia. f_equal; lia.
Qed.

(** what differs from the line of [r] stays *)
Lemma other_tset : forall c r v i', i' <> a_idx p (cq_addr r) -> tset (ct c) 0 (a_idx p (cq_addr r)) v 0 i' = ct c 0 i'.
Proof. intros. apply tset_other; auto. Qed.
Lemma other_row : forall D r v i' o, i' < nblocks p -> i' <> a_idx p (cq_addr r) ->
  gb (upd D (tl_row p r 0) v (indexer p i' 0)) o = gb (D (indexer p i' 0)) o.
Proof. intros. unfold tl_row. apply row_other; auto using zero_way. apply a_idx_lt; auto. Qed.

Definition wdat (r : creq) (L : N) : N := mwrite L (tl_data p r) (wben_req p (a_off p (cq_addr r)) (cq_len r)).

(** storing [r]'s data into the line [L], of which the known bytes are those of [c] *)
Lemma store_ok : forall k c c' r L, kinv k c -> cq_addr r < 2 ^ p_abw p ->
  let i := a_idx p (cq_addr r) in
  a_off p (cq_addr r) + size p r <= 2 ^ offw p ->
  (forall L o, o < 2 ^ offw p -> gb (wdat r L) o =
    if (a_off p (cq_addr r) <=? o) && (o <? a_off p (cq_addr r) + size p r)
    then gb (trunc (p_dbw p) (cq_data r)) (o - a_off p (cq_addr r)) else gb L o) ->
  (forall i', i' < nblocks p -> i' <> i -> ct c' 0 i' = ct c 0 i') ->
  (forall i' o, i' < nblocks p -> i' <> i -> lbyte p c' 0 i' o = lbyte p c 0 i' o) ->
  (forall j, cr c' j = 0) ->
  lval p c' 0 i = true -> ltag p c' 0 i = a_tag p (cq_addr r) ->
  cd c' (tl_row p r 0) = wdat r L ->
  (tl_hit p c r = true -> L = cd c (tl_row p r 0)) ->
  kinv (learn p k r (trunc (p_dbw p) (cq_data r))) c'.
Proof.
  intros k c c' r L K A i FIT G CT CD CR V T DA HL.
  apply learn_ok with c; auto.
  - intros o Ho H1 H2. unfold lbyte. fold (tl_row p r 0). unfold i. fold (tl_row p r 0). rewrite DA, G by auto.
    apply N.leb_le in H1. apply N.ltb_lt in H2. rewrite H1, H2. auto.
  - intros o Ho H1 HT. unfold lbyte. unfold i. fold (tl_row p r 0). rewrite DA, HL, G by auto.
    destruct H1 as [H1|H1]; [apply N.leb_gt in H1; rewrite H1 | apply N.ltb_ge in H1; rewrite H1, andb_false_r]; auto.
Qed.

Lemma tag_trunc : forall a, trunc (tagw p) (a_tag p a) = a_tag p a.
Proof. intros. apply trunc_small, a_tag_lt; auto. Qed.

Lemma read_zero : forall r L, cq_type r <> T_READ -> tl_read p r L = 0.
Proof. intros r L H. unfold tl_read. apply N.eqb_neq in H. rewrite H. apply read_off. Qed.

(** WRITE_INIT *)
Lemma ini_kinv : forall k c r dm, kinv k c -> wf_init p r ->
  resp_ok p k r (tl_resp r 0 0) /\ kinv (know_next p k r (tl_resp r 0 0)) (tl_ini p c r dm).
Proof.
  intros k c r dm K (T & WF & WR). split.
  - constructor; try reflexivity; rewrite T; try discriminate; auto.
  - unfold know_next. rewrite T. change (T_INIT =? T_INV) with false. change (T_INIT =? T_FLUSH) with false. change (is_amo T_INIT) with false.
    change (T_INIT =? T_READ) with false. cbn iota.
    pose proof (write_geo p W (as_write r) WF WR) as G. pose proof WF as (A & _). cbn [as_write cq_addr] in A.
    assert (SZ : size p r = req_bytes p (as_write r)) by (unfold size; rewrite T; reflexivity).
    assert (TD : tl_data p r = tl_data p (as_write r)) by (unfold tl_data, tl_isamo; rewrite T; reflexivity).
    apply store_ok with c (cd c (tl_row p r 0)); auto.
    + destruct G. cbn [as_write cq_addr] in *. rewrite ?N2Nat.id, <- SZ in *. auto.
    + intros L o Ho. unfold wdat. rewrite TD, SZ. destruct G. cbn [as_write cq_addr cq_len cq_data] in *. rewrite ?N2Nat.id in *. apply wg_line; auto.
    + intros. apply other_tset; auto.
    + intros. unfold lbyte. apply other_row; auto.
    + intros. apply (kv_rep k c K).
    + unfold lval, tl_ini. cbn [ct]. rewrite tset_same. apply te_val_all.
    + unfold ltag, tl_ini. cbn [ct]. rewrite tset_same, te_tag_all. apply tag_trunc.
    + unfold tl_ini. cbn [cd]. apply row_same.
Qed.
Lemma kv_same : forall k c c', kinv k c -> (forall w i, ct c' w i = ct c w i) -> (forall j, cd c' j = cd c j) ->
  (forall j, cr c' j = 0) -> kinv k c'.
Proof.
  intros k c c' K CT CD CR. constructor; auto.
  - intros i Hi. rewrite (kv_line k c K i Hi). unfold lval, lno, ltag. rewrite CT. auto.
  - intros a v E. unfold lval, ltag, lbyte. rewrite CT, CD. apply (kv_byte k c K a v E).
Qed.

Lemma drop_ok : forall k c c' r, kinv k c -> cq_addr r < 2 ^ p_abw p ->
  (forall i', i' < nblocks p -> i' <> a_idx p (cq_addr r) -> ct c' 0 i' = ct c 0 i') ->
  cd c' = cd c -> (forall j, cr c' j = 0) -> lval p c' 0 (a_idx p (cq_addr r)) = false ->
  kinv (drop p k r) c'.
Proof.
  intros k c c' r K A CT CD CR V. constructor; auto; cbn [drop k_line k_byte].
  - intros j Hj. unfold set_of. rewrite (line_set p W) by auto. destruct (N.eqb_spec j (a_idx p (cq_addr r))) as [->|N].
    + rewrite V. auto.
    + rewrite (kv_line k c K j Hj). unfold lval, lno, ltag. rewrite CT by auto. auto.
  - intros a v. destruct (N.eqb_spec (set_of p a) (set_of p (cq_addr r))) as [_|N]; [discriminate|].
    intros E. destruct (kv_byte k c K a v E) as (H1 & H2). split; auto.
    unfold set_of in N. rewrite !(line_set p W) in N by auto. unfold lval, ltag, lbyte. rewrite CD, CT; auto. apply a_idx_lt; auto.
Qed.

Lemma inv_kinv : forall k c, kinv k c -> kinv know0 (mkC (tmap p (ent_inv p) (ct c)) (cd c) (cr c)).
Proof.
  intros k c K. constructor; cbn [know0 k_line k_byte]; try discriminate; [apply (kv_rep k c K)|].
  intros i Hi. unfold lval. cbn [ct]. rewrite (ct_tmap p) by auto using zero_way. destruct (te_inv p (ct c 0 i)) as (-> & _). auto.
Qed.
Lemma flush_kinv : forall k c, kinv k c -> kinv k (mkC (tmap p (ent_clean p) (ct c)) (cd c) (cr c)).
Proof.
  intros k c K. constructor; [apply (kv_rep k c K)| |].
  - intros i Hi. rewrite (kv_line k c K i Hi). unfold lval, lno, ltag. cbn [ct]. rewrite (ct_tmap p) by auto using zero_way.
    destruct (te_clean p (ct c 0 i)) as (E1 & E2 & E3). rewrite E1, E3. auto.
  - intros a v E. destruct (kv_byte k c K a v E) as (H1 & H2 & H3 & H4). split; auto.
    assert (Hi : a_idx p a < nblocks p) by (apply a_idx_lt; auto).
    unfold lval, ltag, lbyte in *. cbn [ct cd]. rewrite (ct_tmap p) by auto using zero_way.
    destruct (te_clean p (ct c 0 (a_idx p a))) as (E1 & E2 & E3). rewrite E1, E3. auto.
Qed.
Lemma other_byte : forall c c' r v T i' o, i' < nblocks p -> i' <> a_idx p (cq_addr r) ->
  c' = mkC T (upd (cd c) (tl_row p r 0) v) (cr c') -> lbyte p c' 0 i' o = lbyte p c 0 i' o.
Proof. intros c c' r v T i' o Hi N E. rewrite E. unfold lbyte. cbn [cd]. apply other_row; auto. Qed.

Lemma slice_lt32 : forall d, slice d 0 32 < 2 ^ 32.
Proof. intros. apply (slice_lt d 0 32). Qed.

Definition rfl (c : cst) (r : creq) (d : N) : N -> N :=
  upd (cd c) (tl_row p r 0) (mwrite (cd c (tl_row p r 0)) d (wben_dirty p (tl_dirty p c r))).

Lemma read_kinv : forall k c r d, kinv k c -> wf_req p r -> wf_read p r ->
  resp_ok p k r (snd (tl_fin p c r d)) /\ kinv (know_next p k r (snd (tl_fin p c r d))) (fst (tl_fin p c r d)).
Proof.
  intros k c r d K WF WR. pose proof WF as (A & _). pose proof WR as (TY & _).
  pose proof (tl_fin_echo p c r d) as (E1 & E2 & E3).
  assert (NA : tl_isamo r = false) by (unfold tl_isamo; rewrite TY; auto).
  assert (SZ : size p r = req_bytes p r) by (apply size_req; rewrite TY; discriminate).
  destruct (read_geo p W r WF WR) as [FIT _].
  assert (KN : forall y, know_next p k r y = learn p k r (cr_data y)) by (intro; unfold know_next; rewrite TY; auto).
  set (z := tl_fin p c r d) in *.
  assert (EZ : z = if tl_hit p c r
    then (mkC (ct c) (cd c) (tl_crep p c r), tl_resp r 1 (tl_read p r (cd c (tl_row p r 0))))
    else (mkC (tset (ct c) 0 (a_idx p (cq_addr r)) (ent_refill p c r (ct c 0 (a_idx p (cq_addr r))))) (rfl c r d) (tl_crep p c r),
          tl_resp r 0 (tl_read p r (rfl c r d (tl_row p r 0))))).
  { unfold z, tl_fin. rewrite TY, NA. change (T_READ =? T_INV) with false. change (T_READ =? T_FLUSH) with false. cbn iota.
    pose proof (kv_rep k c K) as RP. rewrite ?hw1w, ?way1w by auto.
    destruct (tl_hit p c r); unfold tl_wtag, tl_replay_tag, tl_wdat, tl_clean_hit, tl_refill_tag, tl_refill_dat; rewrite TY, ?way1w by auto;
      change (T_READ =? T_WRITE) with false; rewrite ?andb_false_r; cbn iota; auto. }
  assert (TST : cr_test (snd z) = if there p k r then 1 else 0).
  { rewrite (there_hit k c r K A), EZ. destruct (tl_hit p c r); auto. }
  assert (DAT : cr_data (snd z) = tl_read p r (cd (fst z) (tl_row p r 0))).
  { rewrite EZ. destruct (tl_hit p c r); auto. }
  split.
  - constructor; auto.
    + rewrite TST, TY. auto.
    + intros _ a v KB v' B. destruct (tl_hit p c r) eqn:HT.
      * eapply known_byte; eauto. rewrite EZ in B. cbn [snd tl_resp cr_data] in B. exact B.
      * exfalso. unfold byte_of in B. rewrite SZ in B. destruct ((cq_addr r <=? a) && (a <? cq_addr r + req_bytes p r)) eqn:R; [|discriminate].
        apply andb_prop in R. destruct R as [R1 R2]. apply N.leb_le in R1. apply N.ltb_lt in R2.
        destruct (addr_add p W (cq_addr r) (a - cq_addr r) A) as (X1 & X2 & X3 & X4); [lia|].
        replace (cq_addr r + (a - cq_addr r)) with a in * by lia.
        destruct (kv_byte k c K a v KB) as (_ & V & T & _). rewrite X3 in V, T. rewrite X2 in T.
        rewrite hit1w, V, T, N.eqb_refl in HT. discriminate.
    + intros _. rewrite SZ, DAT. apply read_lt; auto.
    + intros N. contradiction.
  - rewrite KN, DAT. 
    assert (RB : forall o, o < 2 ^ offw p -> a_off p (cq_addr r) <= o -> o < a_off p (cq_addr r) + size p r ->
       lbyte p (fst z) 0 (a_idx p (cq_addr r)) o = gb (tl_read p r (cd (fst z) (tl_row p r 0))) (o - a_off p (cq_addr r))).
    { intros o Ho H1 H2. rewrite SZ in H2. rewrite (read_bytes r _ o WF WR H1 H2). auto. }
    apply learn_ok with c; auto; try (rewrite SZ; exact FIT); rewrite EZ; destruct (tl_hit p c r) eqn:HT; cbn [fst ct cd cr]; intros; auto.
    + apply other_tset; auto.
    + eapply other_byte; eauto. cbn [cr]. unfold rfl. reflexivity.
    + apply crep1w. apply (kv_rep k c K).
    + apply crep1w. apply (kv_rep k c K).
    + rewrite hit1w in HT. apply andb_prop in HT. apply HT.
    + unfold lval. cbn [ct]. rewrite tset_same. apply te_val_all.
    + rewrite hit1w in HT. apply andb_prop in HT. destruct HT as [_ HT]. apply N.eqb_eq in HT. exact HT.
    + unfold ltag. cbn [ct]. rewrite tset_same. unfold ent_refill. rewrite te_tag_all. apply tag_trunc.
    + discriminate.
Qed.

Lemma write_kinv : forall k c r d, kinv k c -> wf_req p r -> wf_write p r ->
  resp_ok p k r (snd (tl_fin p c r d)) /\ kinv (know_next p k r (snd (tl_fin p c r d))) (fst (tl_fin p c r d)).
Proof.
  intros k c r d K WF WR. pose proof WF as (A & _). pose proof WR as (TY & _).
  pose proof (tl_fin_echo p c r d) as (E1 & E2 & E3).
  assert (NA : tl_isamo r = false) by (unfold tl_isamo; rewrite TY; auto).
  assert (SZ : size p r = req_bytes p r) by (apply size_req; rewrite TY; discriminate).
  pose proof (write_geo p W r WF WR) as G.
  assert (KN : forall y, know_next p k r y = learn p k r (trunc (p_dbw p) (cq_data r))) by (intro; unfold know_next; rewrite TY; auto).
  set (z := tl_fin p c r d) in *.
  assert (EZ : z = if tl_hit p c r
    then (mkC (tl_wtag p c r (ct c)) (upd (cd c) (tl_row p r 0) (wdat r (cd c (tl_row p r 0)))) (tl_crep p c r), tl_resp r 1 0)
    else (mkC (tl_replay_tag p c r (tl_refill_tag p c r (ct c))) (upd (rfl c r d) (tl_row p r 0) (wdat r (rfl c r d (tl_row p r 0)))) (tl_crep p c r),
          tl_resp r 0 0)).
  { unfold z, tl_fin. rewrite TY, NA. change (T_WRITE =? T_INV) with false. change (T_WRITE =? T_FLUSH) with false. cbn iota.
    pose proof (kv_rep k c K) as RP. rewrite ?hw1w, ?way1w by auto.
    rewrite !read_zero by (rewrite TY; discriminate).
    destruct (tl_hit p c r); unfold tl_wdat, tl_refill_dat; rewrite TY, ?way1w, ?(wg_replay _ _ _ G) by auto; auto. }
  rewrite KN.
  assert (TST : cr_test (snd z) = if there p k r then 1 else 0).
  { rewrite (there_hit k c r K A), EZ. destruct (tl_hit p c r); auto. }
  split.
  - constructor; auto; try (rewrite TY; discriminate).
    + rewrite TST, TY. auto.
    + intros _ _. rewrite EZ. destruct (tl_hit p c r); auto.
  - assert (FIT : a_off p (cq_addr r) + size p r <= 2 ^ offw p).
    { rewrite SZ. destruct G. rewrite <- wg_n. auto. }
    assert (GB : forall L o, o < 2 ^ offw p -> gb (wdat r L) o =
      if (a_off p (cq_addr r) <=? o) && (o <? a_off p (cq_addr r) + size p r)
      then gb (trunc (p_dbw p) (cq_data r)) (o - a_off p (cq_addr r)) else gb L o).
    { intros L o Ho. rewrite SZ. destruct G. rewrite <- wg_n. apply wg_line. auto. }
    destruct (tl_hit p c r) eqn:HT; rewrite EZ; cbn [fst].
    + assert (HT' := HT). rewrite hit1w in HT'. apply andb_prop in HT'. destruct HT' as [HV HTG]. apply N.eqb_eq in HTG.
      apply store_ok with c (cd c (tl_row p r 0)); auto; cbn [cd cr]; intros.
      * unfold tl_wtag. rewrite hw1w. cbn [ct]. destruct (tl_clean_hit p c r); auto. apply other_tset; auto.
      * eapply other_byte; eauto.
      * apply crep1w. apply (kv_rep k c K).
      * unfold lval, tl_wtag in *. rewrite hw1w. cbn [ct]. destruct (tl_clean_hit p c r); [rewrite tset_same, te_val_all|]; exact HV.
      * unfold ltag, tl_wtag in *. rewrite hw1w. cbn [ct]. destruct (tl_clean_hit p c r); [rewrite tset_same, te_tag_all; apply tag_trunc | exact HTG].
      * apply row_same.
    + apply store_ok with c (rfl c r d (tl_row p r 0)); auto; cbn [cd cr]; intros.
      * unfold tl_replay_tag, tl_refill_tag. rewrite TY, way1w by apply (kv_rep k c K). change (T_WRITE =? T_WRITE) with true. cbn [ct]. rewrite tset_other by auto. apply other_tset; auto.
      * unfold lbyte. cbn [cd]. rewrite other_row by auto. unfold rfl. apply other_row; auto.
      * apply crep1w. apply (kv_rep k c K).
      * unfold lval, tl_replay_tag, tl_refill_tag. rewrite TY, way1w by apply (kv_rep k c K). change (T_WRITE =? T_WRITE) with true. cbn [ct]. rewrite tset_same. apply te_val_all.
      * unfold ltag, tl_replay_tag, tl_refill_tag. rewrite TY, way1w by apply (kv_rep k c K). change (T_WRITE =? T_WRITE) with true. cbn [ct]. rewrite tset_same, te_tag_all. apply tag_trunc.
      * apply row_same.
      * congruence.
Qed.

Lemma amo_kinv : forall k c r d, kinv k c -> wf_req p r -> wf_amo p r ->
  resp_ok p k r (snd (tl_fin p c r d)) /\ kinv (know_next p k r (snd (tl_fin p c r d))) (fst (tl_fin p c r d)).
Proof.
  intros k c r d K WF WR. pose proof WF as (A & _). pose proof WR as (AM0 & _).
  assert (AM : is_amo (cq_type r) = true).
  { unfold is_amo, T_AMO_ADD, T_AMO_XOR, T_INV in *. destruct (N.leb_spec 3 (cq_type r)), (N.ltb_spec (cq_type r) 14); auto; lia. }
  clear AM0.
  pose proof (tl_fin_echo p c r d) as (E1 & E2 & E3).
  assert (TE : cq_type r <> T_READ /\ cq_type r <> T_WRITE /\ cq_type r <> T_INV /\ cq_type r <> T_FLUSH).
  { split; [|split; [|split]]; intro E; rewrite E in AM; discriminate AM. }
  destruct TE as (N1 & N2 & N3 & N4). apply N.eqb_neq in N1, N2, N3, N4.
  assert (EZ : tl_fin p c r d = (mkC (tl_amo_tag p c r (ct c)) (cd c) (tl_crep p c r), tl_resp r 0 (slice d 0 32))).
  { unfold tl_fin, tl_isamo. rewrite N3, N4, AM. auto. }
  assert (KN : forall y, know_next p k r y = if there p k r then drop p k r else k).
  { intro. unfold know_next. rewrite N3, N4, AM. auto. }
  rewrite KN. split.
  - constructor; auto; try (intros E; rewrite E in N1; discriminate); try congruence.
    rewrite EZ, N1, N2. auto.
  - rewrite (there_hit k c r K A), EZ. cbn [fst]. unfold tl_amo_tag. rewrite hw1w.
    destruct (tl_hit p c r) eqn:HT; cbn [orb].
    + apply drop_ok with c; auto; cbn [ct cr]; intros.
      * apply other_tset; auto.
      * apply crep1w. apply (kv_rep k c K).
      * unfold lval. cbn [ct]. rewrite tset_same. apply te_val_all.
    + destruct (tl_inval p c r) eqn:IV; [|apply kv_same with c; auto; apply crep1w; apply (kv_rep k c K)].
      unfold tl_inval in IV. rewrite pu1 in IV. cbn [fst snd] in IV.
      apply andb_prop in IV. destruct IV as [IV _]. apply andb_prop in IV. destruct IV as [_ IV]. apply negb_true_iff in IV.
      change (tl_ent p c r 0) with (ct c 0 (a_idx p (cq_addr r))) in IV.
      constructor; cbn [cr]; [apply crep1w; apply (kv_rep k c K)| |].
      * intros i Hi. rewrite (kv_line k c K i Hi). unfold lval, lno, ltag. cbn [ct].
        destruct (N.eq_dec i (a_idx p (cq_addr r))) as [->|N]; [rewrite tset_same, te_val_all, IV; auto | rewrite other_tset by auto; auto].
      * intros a v KB. destruct (kv_byte k c K a v KB) as (H1 & H2 & H3 & H4). split; auto.
        unfold lval, ltag, lbyte in *. cbn [ct cd].
        destruct (N.eq_dec (a_idx p a) (a_idx p (cq_addr r))) as [E|N]; [rewrite E, IV in H2; discriminate | rewrite other_tset by auto; auto].
Qed.

Lemma fin_kinv : forall k c r d, kinv k c -> wf_req p r ->
  resp_ok p k r (snd (tl_fin p c r d)) /\ kinv (know_next p k r (snd (tl_fin p c r d))) (fst (tl_fin p c r d)).
Proof.
  intros k c r d K WF. pose proof WF as (A & _ & [H | [H | [H | [H | H]]]]); auto using read_kinv, write_kinv, amo_kinv;
    (split; [constructor; unfold tl_fin; rewrite H; try discriminate; auto|]); unfold tl_fin, know_next; rewrite H.
  - change (T_INV =? T_INV) with true. cbn [fst snd]. apply inv_kinv with k; auto.
  - change (T_FLUSH =? T_INV) with false. change (T_FLUSH =? T_FLUSH) with true. cbn [fst snd]. apply flush_kinv; auto.
Qed.
End I2.
