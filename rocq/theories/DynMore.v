(** Consequences of the dynamic ownership discipline: sequential consistency; and
    an executable check of the discipline. *)
From Coq Require Import Arith NArith List Bool Lia.
From Verif Require Import Bits Params Msg Units Rtl Mem Spec System Tl ParamsProofs RefineInv RefineProofs
  UnitProofs ViewDefs ViewOps ViewProofs SysProofs SysFacts Traffic MetaProofs PendProofs TrafProofs
  Hide Proto MultiSys MultiProofs MultiFacts DynSpec DynProofs DynFacts.
Import ListNotations.
Open Scope N_scope.

Lemma rd_of_bytes : forall m a n x, x < 2 ^ (8 * N.of_nat n) ->
  (forall j, j < N.of_nat n -> gb x j = trunc 8 (m (a + j))) -> x = rd_bytes m a n.
Proof.
  intros m a n x LT H. apply N.bits_inj. intros b. rewrite testbit_rd. destruct (N.ltb_spec b (8 * N.of_nat n)).
  - assert (J : b / 8 < N.of_nat n) by (apply N.div_lt_upper_bound; lia). specialize (H _ J).
    apply (f_equal (fun z => N.testbit z (b mod 8))) in H.
    assert (B8 : b mod 8 < 8) by (apply N.mod_upper_bound; discriminate).
    pose proof (N.div_mod' b 8) as DM.
    rewrite testbit_gb, testbit_trunc in H. apply N.ltb_lt in B8. rewrite B8 in H. cbn [andb] in *. rewrite <- H. f_equal.
    set (z := b / 8) in *. set (y := b mod 8) in *. clearbody y z. lia.
  - apply (testbit_high (8 * N.of_nat n)); auto.
Qed.

Section SC.
Variable p : params.
Variable sz : nat -> N * N.
Variable n : nat.
Hypothesis W : wf_caches p sz n.
Notation pp := (sized p sz).
Variables (s0 : nat -> st) (m0 : mem).

(** requests of other caches in the same cycle leave a word cache [i] touches alone *)
Lemma before_word : forall K may own ts1 t ts2 i, K * 4 < 2 ^ p_abw p -> clients p sz n s0 (ts1 ++ t :: ts2) ->
  synced p sz n K may own (ts1 ++ t :: ts2) -> (i < n)%nat -> i_req_en (fst (t i)) = true -> touches p (i_req (fst (t i))) K ->
  agree p (mk K true) (flat_mem p m0 (before n ts1 t i)) (flat_mem p m0 (hist n ts1)).
Proof.
  intros K may own ts1 t ts2 i HK C SY I RE TO. unfold before. rewrite flat_mem_app.
  assert (AT : forall j, nth_error (proj j (ts1 ++ t :: ts2)) (length ts1) = Some (t j)).
  { intros j. unfold proj. rewrite map_app, nth_error_app2; rewrite map_length; auto. rewrite Nat.sub_diag. auto. }
  assert (MY : may (length ts1) i = true).
  { destruct (sy_touch _ _ _ _ _ _ _ SY i (length ts1) (t i) I (AT i) RE TO) as (e & E1 & E2 & _). apply E2. lia. }
  apply (flat_keeps p K). apply Forall_forall. intros r R. apply in_flat_map in R. destruct R as (j & J & R). apply in_seq in J.
  rewrite acc1 in R. destruct (i_req_en (fst (t j))) eqn:EJ; [|destruct R]. destruct R as [<- | []]. split.
  - destruct (C j ltac:(lia)) as (_ & _ & CK). unfold client_ok in CK. rewrite Forall_forall in CK.
    apply (CK (t j)); auto. eapply nth_error_In. apply AT.
  - intros TJ. assert (JN : (j < n)%nat) by lia. pose proof (sy_modify _ _ _ _ _ _ _ SY j (length ts1) (t j) JN (AT j) EJ TJ) as OJ.
    pose proof (sy_excl _ _ _ _ _ _ _ SY (length ts1) j i ltac:(rewrite app_length; lia) JN I OJ MY). lia.
Qed.

Theorem dyn_sc : forall may own ts1 t ts2 m rq rs i y,
  mmem p n m0 no_reqs no_resps (ts1 ++ t :: ts2) m rq rs -> clients p sz n s0 (ts1 ++ t :: ts2) ->
  (forall k, k * 4 < 2 ^ p_abw p -> synced p sz n k (may k) (own k) (ts1 ++ t :: ts2)) ->
  (i < n)%nat -> i_req_en (fst (t i)) = true ->
  nth_error (responses (proj i (ts1 ++ t :: ts2))) (length (accepted (proj i ts1))) = Some y ->
  cr_type y = cq_type (i_req (fst (t i))) /\ cr_opq y = cq_opq (i_req (fst (t i))) /\ cr_len y = cq_len (i_req (fst (t i))) /\
  cr_data y = snd (flat_exec p (flat_mem p m0 (before n ts1 t i)) (i_req (fst (t i)))).
Proof.
  intros may own ts1 t ts2 m rq rs i y H C SY I RE NY.
  set (r := i_req (fst (t i))) in *.
  assert (NA : nth_error (accepted (proj i (ts1 ++ t :: ts2))) (length (accepted (proj i ts1))) = Some r).
  { rewrite proj_app, accepted_app. cbn [proj map]. change (t i :: map (fun t0 => t0 i) ts2) with ([t i] ++ proj i ts2).
    rewrite accepted_app, acc1, RE. rewrite nth_error_app2, Nat.sub_diag by lia. auto. }
  assert (EC : echo r = echo_y y).
  { destruct (proto_echo (pp i) (W i I) _ _ (multi_proto p sz n s0 m0 _ _ _ _ i C H I)) as (rest & E).
    destruct (C i I) as (_ & TR & _). rewrite <- TR in E.
    apply (f_equal (fun l => nth_error l (length (accepted (proj i ts1))))) in E. rewrite nth_error_map, NA in E. cbn [option_map] in E.
    rewrite nth_error_app1 in E by (rewrite map_length; apply nth_error_Some; congruence).
    rewrite nth_error_map, NY in E. cbn [option_map] in E. unfold echo, echo_y. injection E as E1 E2 E3. congruence. }
  unfold echo, echo_y in EC. injection EC as E1 E2 E3. split; [auto|split; [auto|split; [auto|]]]. clear E1 E2 E3.
  assert (WF : wf_req p r).
  { destruct (C i I) as (_ & _ & CK). unfold client_ok in CK. rewrite Forall_forall in CK. apply (CK (t i)); auto.
    unfold proj. apply in_map_iff. exists t. split; auto. apply in_or_app. right. left. auto. }
  pose proof WF as (HA & _).
  assert (HW : word_num (cq_addr r) * 4 < 2 ^ p_abw p) by (pose proof (word_mul4 (cq_addr r)); lia).
  pose proof (fun k HK => dyn_resp p sz n W k HK s0 m0 (may k) (own k) ts1 t ts2 m rq rs i y H C (SY k HK) I RE NY) as R2. fold r in R2.
  assert (BE : forall k, k * 4 < 2 ^ p_abw p -> touches p r k ->
     agree p (mk k true) (flat_mem p m0 (before n ts1 t i)) (flat_mem p m0 (hist n ts1))).
  { intros k HK TO. eapply before_word; eauto. }
  set (V := flat_mem p m0 (hist n ts1)) in *. set (U := flat_mem p m0 (before n ts1 t i)) in *. clearbody U V.
  unfold flat_exec. destruct (N.eqb_spec (cq_type r) T_READ) as [TR|TR]; cbn [snd].
  - assert (WR : wf_read p r).
    { destruct (rw_cases p r WF) as [X | (X & _)]; auto; [unfold rw_req; rewrite TR; auto | rewrite TR in X; discriminate X]. }
    apply rd_of_bytes.
    + rewrite N2Nat.id. apply (r2_size _ _ _ _ _ (R2 _ HW)). auto.
    + rewrite N2Nat.id. intros j J. set (k := word_num (cq_addr r + j)).
      assert (HJ : cq_addr r + j < 2 ^ p_abw p) by (pose proof (req_in_range (pp i) (W i I) r WF (or_introl WR) : _ <= 2 ^ p_abw p); change (req_bytes (pp i) r) with (req_bytes p r) in *; lia).
      assert (HK : k * 4 < 2 ^ p_abw p) by (pose proof (word_mul4 (cq_addr r + j)); unfold k; lia).
      assert (TO : touches p r k) by (left; split; auto; unfold k, word_num; split; apply N.div_le_mono; lia).
      rewrite (r2_read _ _ _ _ _ (R2 k HK) TR j J eq_refl). symmetry. apply (BE k HK TO); auto.
      unfold mk. fold k. rewrite N.eqb_refl. auto.
  - destruct (N.eqb_spec (cq_type r) T_WRITE) as [TW|TW]; cbn [snd].
    + apply (r2_zero _ _ _ _ _ (R2 _ HW)); auto. rewrite TW. auto.
    + destruct (is_amo (cq_type r)) eqn:IA; cbn [snd].
      * rewrite (r2_amo _ _ _ _ _ (R2 _ HW) IA eq_refl). apply rd_ext. intros k HK4. change (N.of_nat 4) with 4 in HK4.
        assert (WA : wf_amo p r).
        { destruct WF as (_ & _ & [X | [X | [X | [X | X]]]]); auto; try (destruct X; congruence); rewrite X in IA; discriminate IA. }
        pose proof WA as (_ & AL & _).
        assert (TO : touches p r (word_num (cq_addr r))) by (right; split; auto).
        symmetry. apply (BE _ HW TO).
        -- destruct (off_aligned (pp i) (cq_addr r) 2) as [_ OF]; [pose proof (offw_ge3 (pp i) (W i I)); lia | auto |].
           apply (addr_add (pp i) (W i I)); [apply WF|]. change (2 ^ 2) with 4 in OF. change (offw (pp i)) with (offw p) in *. lia.
        -- unfold mk. apply N.eqb_eq. unfold word_num. pose proof (N.div_mod' (cq_addr r) 4) as DM. rewrite AL in DM.
           set (z := cq_addr r / 4) in *. clearbody z. symmetry. apply N.div_unique with k; lia.
      * apply (r2_zero _ _ _ _ _ (R2 _ HW)); auto.
Qed.
End SC.

(** *** Executable check *)
Definition touchesb (p : params) (r : creq) (k : N) : bool :=
  ((cq_type r =? T_READ) || (cq_type r =? T_WRITE)) &&
    ((word_num (cq_addr r) <=? k) && (k <=? word_num (cq_addr r + req_bytes p r - 1))) ||
  is_amo (cq_type r) && (k =? word_num (cq_addr r)).
Lemma touchesb_ok : forall p r k, touches p r k <-> touchesb p r k = true.
Proof.
  intros p r k. unfold touches, touchesb, amo_word. rewrite orb_true_iff, !andb_true_iff, orb_true_iff, !N.eqb_eq, !N.leb_le. tauto.
Qed.
Definition writesb (p : params) (r : creq) (k : N) : bool :=
  (cq_type r =? T_WRITE) && ((word_num (cq_addr r) <=? k) && (k <=? word_num (cq_addr r + req_bytes p r - 1))).
Lemma writesb_ok : forall p r k, write_word p r k <-> writesb p r k = true.
Proof. intros p r k. unfold write_word, writesb. rewrite !andb_true_iff, N.eqb_eq, !N.leb_le. tauto. Qed.
Definition absentb (p : params) (k : N) (A : list creq) : bool :=
  negb (existsb (N.eqb (line_of p (4 * k))) (lru_run p lru_empty A (line_of p (4 * k) mod nblocks p))).
Lemma absentb_ok : forall p k A, absentb p k A = true -> absent p k A.
Proof.
  intros p k A H IN. unfold absentb in H. apply negb_true_iff in H. rewrite <- not_true_iff_false in H. apply H.
  apply existsb_exists. eexists. split; [exact IN | apply N.eqb_refl].
Qed.
Lemma absentb_no : forall p k A, absentb p k A = false -> ~ absent p k A.
Proof.
  intros p k A H N. apply N. unfold absentb in H. apply negb_false_iff, existsb_exists in H. destruct H as (x & I & E).
  apply N.eqb_eq in E. subst x. exact I.
Qed.
Definition modb (p : params) (r : creq) (k : N) : bool := writesb p r k || is_amo (cq_type r) && (k =? word_num (cq_addr r)).
Lemma modb_ok : forall p r k, modifies p r k <-> modb p r k = true.
Proof. intros p r k. unfold modifies, modb, amo_word. rewrite orb_true_iff, <- writesb_ok, andb_true_iff, N.eqb_eq. tauto. Qed.
Definition cleansb (p : params) (k : N) (A : list creq) (f : creq) : bool :=
  (cq_type f =? T_FLUSH) || is_amo (cq_type f) && (line_of p (cq_addr f) =? line_of p (4 * k)) ||
  negb (cq_type f =? T_INV) && (negb (absentb p k A) && absentb p k (A ++ [f])).
Lemma cleansb_ok : forall p k A f, cleansb p k A f = true -> cleans p k A f.
Proof.
  intros p k A f H. unfold cleansb in H. rewrite !orb_true_iff, !andb_true_iff, !negb_true_iff, !N.eqb_eq, N.eqb_neq in H.
  destruct H as [[H | H] | (H1 & H2 & H3)]; [left | right; left | right; right]; auto.
  split; auto. split; [apply absentb_no; auto | apply absentb_ok; auto].
Qed.

Definition touch_ok (p : params) (k : N) (may own : nat -> nat -> bool) (ts : list cyc) (i t : nat) : bool :=
  match nth_error (proj i ts) t with
  | Some x => (negb (i_req_en (fst x) && touchesb p (i_req (fst x)) k) ||
      existsb (fun e => forallb (fun t' => may t' i) (seq e (S t - e)) && absentb p k (accepted (proj i (firstn e ts)))) (seq 0 (S t))) &&
      (negb (i_req_en (fst x) && modb p (i_req (fst x)) k) || own t i)
  | None => true
  end.
Definition leave_ok (p : params) (k : N) (may own : nat -> nat -> bool) (ts : list cyc) (i t : nat) : bool :=
  let past := proj i (firstn (S t) ts) in
  let A := accepted past in
  let d := length (responses past) in
  (negb (own t i && negb (own (S t) i)) ||
    forallb (fun l => match nth_error A l with
      | Some r => (negb (modb p r k) || Nat.ltb l d) &&
          (negb (writesb p r k) || existsb (fun l' => Nat.ltb l l' && (Nat.ltb l' d &&
             match nth_error A l' with Some f => cleansb p k (firstn l' A) f | None => false end)) (seq 0 (length A)))
      | None => true end) (seq 0 (length A))) &&
  (negb (may t i && negb (may (S t) i)) ||
    forallb (fun l => match nth_error A l with Some r => negb (touchesb p r k) || Nat.ltb l d | None => true end) (seq 0 (length A))).
Definition excl_ok (n : nat) (may own : nat -> nat -> bool) (t : nat) : bool :=
  forallb (fun i => negb (own t i) || may t i && forallb (fun j => negb (may t j) || Nat.eqb i j) (seq 0 n)) (seq 0 n).
Definition syncedb (p : params) (z : nat -> N * N) (n : nat) (k : N) (may own : nat -> nat -> bool) (ts : list cyc) : bool :=
  forallb (excl_ok n may own) (seq 0 (S (length ts))) &&
  forallb (fun i => forallb (fun t => touch_ok (sized p z i) k may own ts i t && leave_ok (sized p z i) k may own ts i t) (seq 0 (length ts))) (seq 0 n).
Lemma syncedb_ok : forall p z n k may own ts, syncedb p z n k may own ts = true -> synced p z n k may own ts.
Proof.
  intros p z n k may own ts H. unfold syncedb in H. apply andb_prop in H. destruct H as [HX H]. rewrite forallb_forall in H, HX.
  assert (AX : forall t i, (t <= length ts)%nat -> (i < n)%nat -> own t i = true -> may t i = true /\
     forall j, (j < n)%nat -> may t j = true -> i = j).
  { intros t i T I O. specialize (HX t ltac:(apply in_seq; lia)). unfold excl_ok in HX. rewrite forallb_forall in HX.
    specialize (HX i ltac:(apply in_seq; lia)). rewrite O in HX. cbn [negb orb] in HX. apply andb_prop in HX. destruct HX as [X1 X2].
    split; auto. intros j J M. rewrite forallb_forall in X2. specialize (X2 j ltac:(apply in_seq; lia)). rewrite M in X2.
    cbn [negb orb] in X2. apply Nat.eqb_eq. auto. }
  assert (AT : forall i t, (i < n)%nat -> (t < length ts)%nat -> touch_ok (sized p z i) k may own ts i t = true /\ leave_ok (sized p z i) k may own ts i t = true).
  { intros i t I T. specialize (H i ltac:(apply in_seq; lia)). rewrite forallb_forall in H.
    specialize (H t ltac:(apply in_seq; lia)). apply andb_prop in H. auto. }
  assert (LT : forall i t x, nth_error (proj i ts) t = Some x -> (t < length ts)%nat).
  { intros i t x E. assert (t < length (proj i ts))%nat by (apply nth_error_Some; congruence). unfold proj in *. rewrite map_length in *. auto. }
  clear H HX. constructor.
  - intros t i T I O. apply (AX t i T I O).
  - intros t i j T I J O M. apply (AX t i T I O); auto.
  - intros i t x I NT RE TO. destruct (AT i t I (LT _ _ _ NT)) as [X _]. unfold touch_ok in X. rewrite NT, RE in X.
    apply andb_prop in X. destruct X as [X _]. apply (touchesb_ok (sized p z i)) in TO. rewrite TO in X. cbn [andb negb orb] in X.
    apply existsb_exists in X. destruct X as (e & E & X). apply in_seq in E. apply andb_prop in X. destruct X as [X1 X2].
    exists e. split; [lia|]. split; [|apply absentb_ok; auto]. intros t' T'. rewrite forallb_forall in X1.
    apply X1. apply in_seq. lia.
  - intros i t x I NT RE TO. destruct (AT i t I (LT _ _ _ NT)) as [X _]. unfold touch_ok in X. rewrite NT, RE in X.
    apply andb_prop in X. destruct X as [_ X]. apply (modb_ok (sized p z i)) in TO. rewrite TO in X. cbn [andb negb orb] in X. auto.
  - intros i t I T O1 O2 past. destruct (AT i t I T) as [_ X]. unfold leave_ok in X. apply andb_prop in X. destruct X as [X _].
    rewrite O1, O2 in X. cbn [andb negb orb] in X. fold past in X. rewrite forallb_forall in X.
    assert (Y : forall l r, nth_error (accepted past) l = Some r ->
      (negb (modb (sized p z i) r k) || Nat.ltb l (length (responses past))) &&
          (negb (writesb (sized p z i) r k) || existsb (fun l' => Nat.ltb l l' && (Nat.ltb l' (length (responses past)) &&
             match nth_error (accepted past) l' with Some f => cleansb (sized p z i) k (firstn l' (accepted past)) f | None => false end)) (seq 0 (length (accepted past)))) = true).
    { intros l r E. assert (L : (l < length (accepted past))%nat) by (apply nth_error_Some; congruence).
      specialize (X l ltac:(apply in_seq; lia)). rewrite E in X. auto. }
    clear X. split.
    + intros l r E TO. apply Y in E. apply andb_prop in E. destruct E as [E _]. apply (modb_ok (sized p z i)) in TO. rewrite TO in E. cbn [negb orb] in E.
      apply Nat.ltb_lt. auto.
    + intros l r E TO. apply Y in E. apply andb_prop in E. destruct E as [_ E]. apply (writesb_ok (sized p z i)) in TO. rewrite TO in E. cbn [negb orb] in E.
      apply existsb_exists in E. destruct E as (l' & _ & E). apply andb_prop in E. destruct E as [E1 E]. apply andb_prop in E. destruct E as [E2 E].
      apply Nat.ltb_lt in E1, E2. destruct (nth_error (accepted past) l') as [f|] eqn:EF; [|discriminate E]. apply cleansb_ok in E.
      exists l', f. auto.
  - intros i t I T O1 O2 past l r E TO. destruct (AT i t I T) as [_ X]. unfold leave_ok in X. apply andb_prop in X. destruct X as [_ X].
    rewrite O1, O2 in X. cbn [andb negb orb] in X. fold past in X. rewrite forallb_forall in X.
    assert (L : (l < length (accepted past))%nat) by (apply nth_error_Some; congruence).
    specialize (X l ltac:(apply in_seq; lia)). rewrite E in X. apply (touchesb_ok (sized p z i)) in TO. rewrite TO in X. cbn [negb orb] in X. apply Nat.ltb_lt. auto.
Qed.
(** a word nobody touches needs no owner *)
Lemma synced_none : forall p z n k ts,
  (forall i r, (i < n)%nat -> In r (accepted (proj i ts)) -> ~ touches p r k) -> synced p z n k (fun _ _ => false) (fun _ _ => false) ts.
Proof.
  intros p z n k ts H.
  assert (NT : forall i t x, (i < n)%nat -> nth_error (proj i ts) t = Some x -> i_req_en (fst x) = true -> ~ touches p (i_req (fst x)) k).
  { intros i t x I NT RE TO. apply (H i _ I) in TO; auto. unfold accepted. apply in_flat_map. exists x. split.
    - eapply nth_error_In; eauto.
    - rewrite RE. left. auto. }
  constructor.
  - intros t i _ _ X. discriminate X.
  - intros t i j _ _ _ X. discriminate X.
  - intros i t x I NX RE TO. exfalso. eapply NT; eauto.
  - intros i t x I NX RE TO. exfalso. eapply NT; eauto. apply mod_touch; auto.
  - intros i t _ _ X. discriminate X.
  - intros i t _ _ X. discriminate X.
Qed.
