(** System-level facts about hits and memory traffic. *)
From Coq Require Import Arith NArith List Bool Lia.
From Verif Require Import Bits Params Msg Units Rtl Mem Spec System Tl ParamsProofs RtlLemmas RefineInv RefineStall RefineProofs
  ViewDefs ViewProofs SysProofs SysFacts Facts1 Facts2 Traffic MetaProofs PendProofs TrafProofs.
Import ListNotations.
Open Scope N_scope.

Section F.
Variable p : params.
Hypothesis W : wf_params p.

(** *** Requests as sent differ from [tl_reqs] at most in the opaque field of flush write-backs *)
Lemma match_eq : forall r g g', cq_type r <> T_FLUSH -> Forall2 (mreq_match r) g g' -> g = g'.
Proof.
  intros r g g' N. induction 1 as [|e q g g' (E1 & E2 & E3 & E4 & E5 & E6) F IH]; auto.
  rewrite IH. f_equal. destruct e, q; cbn in *. rewrite E6 in * by auto. subst. auto.
Qed.
Lemma match_refl : forall r g, Forall2 (mreq_match r) g g.
Proof. intros r g. induction g; constructor; auto. unfold mreq_match. tauto. Qed.

Lemma in_req_addr : forall q q' k, mq_addr q = mq_addr q' -> in_req p q k = in_req p q' k.
Proof. intros q q' k E. unfold in_req. rewrite E. auto. Qed.
Lemma clears_match : forall r g g', Forall2 (mreq_match r) g g' -> forall P k, clears p P g k = clears p P g' k.
Proof.
  intros r g g'. induction 1 as [|e q g g' (E1 & E2 & _) F IH]; intros P k; auto.
  unfold clears in *. cbn [fold_left].
  assert (X : forall l (P1 P2 : N -> bool), (forall k, P1 k = P2 k) -> fold_left (clear p) l P1 k = fold_left (clear p) l P2 k).
  { induction l as [|x l IHl]; intros P1 P2 E; cbn [fold_left]; auto. apply IHl. intros j. unfold clear. rewrite E. auto. }
  rewrite (X g _ (clear p P q)); [apply IH|]. intros j. unfold clear. rewrite (in_req_addr e q j) by auto. auto.
Qed.
Lemma writes_match : forall r g g', Forall2 (mreq_match r) g g' -> Forall2 (mreq_match r) (writes g) (writes g').
Proof.
  intros r g g'. induction 1 as [|e q g g' M F IH]; cbn [writes filter]; [constructor|].
  pose proof M as (E1 & _). assert (X : is_write e = is_write q) by (unfold is_write; rewrite E1; auto). rewrite X. destruct (is_write q); auto.
Qed.
Lemma clear_ext : forall P P' q, (forall k, P k = P' k) -> forall k, clear p P q k = clear p P' q k.
Proof. intros P P' q E k. unfold clear. rewrite E. auto. Qed.
Lemma wb_ext : forall P P' m q, (forall k, P k = P' k) -> wb_ok p P m q -> wb_ok p P' m q.
Proof. intros P P' m q E [h1 h2 h3 h4 h5 h6]. constructor; auto. intros j. rewrite h5, E. auto. Qed.
Lemma wbs_ext : forall g P P' m, (forall k, P k = P' k) -> wbs_ok p P m g -> wbs_ok p P' m g.
Proof.
  induction g as [|q g IH]; intros P P' m E H; auto. destruct H as [H1 H2]. split; [eapply wb_ext; eauto|].
  apply (IH (clear p P q)); auto. apply clear_ext. auto.
Qed.
Lemma wbs_match : forall r g g', Forall2 (mreq_match r) g g' -> forall P m, wbs_ok p P m g -> wbs_ok p P m g'.
Proof.
  intros r g g'. induction 1 as [|e q g g' (E1 & E2 & E3 & E4 & E5 & _) F IH]; intros P m H; auto. destruct H as [[h1 h2 h3 h4 h5 h6] H]. split.
  - constructor; rewrite <- ?E1, <- ?E2, <- ?E3, <- ?E4, <- ?E5; auto.
  - apply IH. eapply wbs_ext; [|exact H]. intros k. unfold clear. rewrite (in_req_addr e q k) by auto. auto.
Qed.
Lemma traf_match : forall P L m r g g', Forall2 (mreq_match r) g g' -> req_traffic p P L m r g -> req_traffic p P L m r g'.
Proof.
  intros P L m r g g' F H. destruct (N.eq_dec (cq_type r) T_FLUSH) as [T|T].
  - unfold req_traffic, rw_req in *. rewrite T in *.
    change ((T_FLUSH =? T_READ) || (T_FLUSH =? T_WRITE)) with false in *. change (is_amo T_FLUSH) with false in *.
    change (T_FLUSH =? T_FLUSH) with true in *. cbn iota in *. destruct H as [H1 H2]. split; [eapply wbs_match; eauto|].
    intros k K. rewrite <- (clears_match r g g' F). auto.
  - rewrite <- (match_eq r g g' T F). auto.
Qed.

(** *** Appending one request *)
Lemma traf_snoc : forall A G P L m r g, length A = length G ->
  (traffic p P L m (A ++ [r]) (G ++ [g]) <->
   traffic p P L m A G /\ req_traffic p (pend_run p P A G) (lru_run p L A) (flat_mem p m A) r g).
Proof.
  induction A as [|x A IH]; intros [|y G] P L m r g LE; try discriminate; cbn [app traffic pend_run lru_run flat_mem].
  - tauto.
  - rewrite (IH G) by (cbn in LE; lia). tauto.
Qed.
Lemma pend_snoc : forall A G P r g, length A = length G ->
  pend_run p P (A ++ [r]) (G ++ [g]) = mark p (clears p (pend_run p P A G) (writes g)) r.
Proof.
  induction A as [|x A IH]; intros [|y G] P r g LE; try discriminate; cbn [app pend_run]; auto.
Qed.
Lemma lru_run_app : forall A B L, lru_run p L (A ++ B) = lru_run p (lru_run p L A) B.
Proof. induction A; intros; cbn; auto. Qed.
Lemma lru_tests_app : forall A B L, lru_tests p L (A ++ B) = lru_tests p L A ++ lru_tests p (lru_run p L A) B.
Proof. induction A; intros; cbn; auto. rewrite IHA. auto. Qed.
Lemma lru_tests_len : forall A L, length (lru_tests p L A) = length A.
Proof. induction A; intros; cbn; auto. Qed.

Lemma mark_ext : forall P P' r k, P k = P' k -> mark p P r k = mark p P' r k.
Proof. intros P P' r k E. unfold mark. destruct (cq_type r =? T_WRITE); auto. rewrite E. auto. Qed.

Definition none : N -> bool := fun _ => false.

Lemma pend_init : forall c, (forall w i, w < p_assoc p -> i < nblocks p -> te_val p (ct c w i) = false /\ te_dty p (ct c w i) = 0) ->
  pendeq p none c.
Proof.
  intros c H a A. unfold none. symmetry. apply not_true_iff_false. intro D. apply dset_true in D. destruct D as (w & Hw & D).
  apply dirty_at_inv in D. destruct D as [_ D]. unfold ldty in D.
  destruct (H w (a_idx p a) Hw (a_idx_lt p W a)) as [_ E]. rewrite E, N.bits_0 in D. discriminate.
Qed.

Theorem hist_traffic : forall m0 A c m Y Q, hist p m0 A c m Y Q -> forall S, Forall2 qmatch Q S ->
  exists G, length A = length G /\ concat G = S /\ traffic p none lru_empty m0 A G /\ pendeq p (pend_run p none A G) c /\
    lruinv p (lru_run p lru_empty A) c /\ map cr_test Y = lru_tests p lru_empty A.
Proof.
  intros m0 A c m Y Q H. induction H as [c CS | A c m Y Q r H IH WF]; intros S F.
  - inversion F; subst. exists []. destruct CS as [C1 C2]. cbn. split; auto. split; auto. split; auto.
    split; [apply pend_init; auto|]. split; auto. apply lru_init; auto.
  - apply Forall2_app_inv_l in F. destruct F as (S1 & S2 & F1 & F2 & ->).
    destruct (IH S1 F1) as (G & LG & CG & TG & PG & LI & TE).
    destruct (hist_flat p W _ _ _ _ _ _ H) as (I & V & _).
    assert (FM : Forall2 (mreq_match r) (tl_reqs p c r) S2).
    { clear - F2. revert S2 F2. induction (tl_reqs p c r) as [|e l IHl]; intros S2 F2; inversion F2; subst; constructor; auto. }
    set (d := last_data (snd (mem_run p m (tl_reqs p c r)))) in *.
    destruct (traf_step p W c m _ _ (flat_mem p m0 A) r d I PG LI V WF) as [T1 T2].
    destruct (lru_fin p W _ c r d LI (ci_uniq _ _ _ I) (ci_rep _ _ _ I) WF) as [L1 L2].
    exists (G ++ [S2]). rewrite !app_length. split; [cbn; lia|].
    split; [rewrite concat_app, CG; cbn [concat]; rewrite app_nil_r; auto|].
    split; [apply traf_snoc; auto; split; auto; eapply traf_match; eauto|].
    rewrite pend_snoc, lru_run_app, lru_tests_app, map_app by auto. cbn [lru_run lru_tests map].
    split; [|split; [auto | rewrite TE, L2; auto]].
    intros a A1. rewrite <- T2 by auto. apply mark_ext. symmetry. apply clears_match with r. apply writes_match. auto.
Qed.

(** *** The system *)
Theorem sys_traffic : forall s0 is m0 m rq rs, sys_run p s0 is m0 m rq rs ->
  let tr := trace_of p s0 is in
  exists G, traffic p none lru_empty m0 (accepted tr) G /\
    (exists rest, concat G = memreqs tr ++ rest) /\
    (exists mid, memreqs tr = concat (firstn (length (responses tr)) G) ++ mid).
Proof.
  intros s0 is m0 m rq rs R tr. destruct (sys_state p W _ _ _ _ _ _ R) as (a & ST).
  destruct (stok_J p _ _ _ _ _ _ _ _ ST) as [JJ _].
  destruct (J_hist p _ _ _ _ _ _ _ _ JJ) as (A0 & c & mb & Q & pd & H & _ & _ & C). fold tr in H, C.
  pose proof (hist_length p _ _ _ _ _ _ H) as HL. rewrite app_length in HL.
  destruct C as [(E & _ & _ & _ & _ & F) | (r & ex & qs & todo & out & l & E & WF & _ & TR & _ & _ & _ & _ & F)]; rewrite E.
  - destruct (hist_traffic _ _ _ _ _ _ H _ F) as (G & LG & CG & TG & _). exists G. split; auto.
    split; [exists []; rewrite app_nil_r; auto|]. exists (concat (skipn (length (responses tr)) G)).
    rewrite <- concat_app, firstn_skipn. auto.
  - apply Forall2_app_inv_l in F. destruct F as (S1 & S2 & F1 & F2 & ES).
    assert (FM : Forall2 (mreq_match r) (tl_reqs p c r) (S2 ++ todo)).
    { rewrite TR, app_assoc. apply Forall2_app; [|apply match_refl]. clear - F2. revert S2 F2.
      induction (ex ++ qs) as [|e l0 IHl]; intros S2 F2; inversion F2; subst; constructor; auto. }
    destruct (hist_flat p W _ _ _ _ _ _ H) as (I & V & _).
    destruct (hist_traffic _ _ _ _ _ _ H _ F1) as (G & LG & CG & TG & PG & LI & _).
    destruct (traf_step p W c mb _ _ (flat_mem p m0 A0) r 0 I PG LI V WF) as [T1 _].
    exists (G ++ [S2 ++ todo]). rewrite ES. split; [apply traf_snoc; auto; split; auto; eapply traf_match; eauto|].
    rewrite concat_app, CG. cbn [concat]. rewrite app_nil_r, firstn_app.
    replace (length (responses tr) - length G)%nat with 0%nat by lia. cbn [firstn]. rewrite app_nil_r.
    split; [exists todo; rewrite app_assoc; auto|]. exists (concat (skipn (length (responses tr)) G) ++ S2).
    rewrite app_assoc, <- concat_app, firstn_skipn, CG. auto.
Qed.

Theorem sys_tests : forall s0 is m0 m rq rs, sys_run p s0 is m0 m rq rs ->
  let tr := trace_of p s0 is in
  exists rest, lru_tests p lru_empty (accepted tr) = map cr_test (responses tr) ++ rest.
Proof.
  intros s0 is m0 m rq rs R tr. destruct (sys_state p W _ _ _ _ _ _ R) as (a & ST).
  destruct (stok_J p _ _ _ _ _ _ _ _ ST) as [JJ _].
  destruct (J_hist p _ _ _ _ _ _ _ _ JJ) as (A0 & c & mb & Q & pd & H & _ & _ & C). fold tr in H, C.
  assert (X : map cr_test (responses tr ++ pd) = lru_tests p lru_empty A0).
  { destruct C as [(E & _ & _ & _ & _ & F) | (r & ex & qs & todo & out & l & E & WF & _ & TR & _ & _ & _ & _ & F)].
    - destruct (hist_traffic _ _ _ _ _ _ H _ F) as (G & _ & _ & _ & _ & _ & T). auto.
    - apply Forall2_app_inv_l in F. destruct F as (S1 & S2 & F1 & _).
      destruct (hist_traffic _ _ _ _ _ _ H _ F1) as (G & _ & _ & _ & _ & _ & T). auto. }
  rewrite map_app in X.
  destruct C as [(E & _) | (r & ex & qs & todo & out & l & E & _)]; rewrite E.
  - exists (map cr_test pd). auto.
  - rewrite lru_tests_app, <- X, <- app_assoc. eauto.
Qed.

(** *** Tracker corollaries: C05, C06, C08 *)
Definition same_line_rw (l : N) (r : creq) : Prop := rw_req r = true /\ line_of p (cq_addr r) = l.

Lemma in_remove_iff : forall x y l, In x (remove N.eq_dec y l) -> In x l /\ x <> y.
Proof. intros. apply in_remove in H. auto. Qed.
Lemma in_firstn : forall (x : N) n l, In x (firstn n l) -> In x l.
Proof. induction n; intros [|y l] H; cbn in *; auto; try contradiction. destruct H; auto. Qed.

(** a line becomes resident only by a READ or WRITE of it *)
Lemma lru_gone : forall B l L, (forall r, In r B -> ~ same_line_rw l r) ->
  ~ In l (L (l mod nblocks p)) -> ~ In l (lru_run p L B (l mod nblocks p)).
Proof.
  induction B as [|r B IH]; intros l L NB N; cbn [lru_run]; auto. apply IH; [intros; apply NB; right; auto|].
  specialize (NB r (or_introl eq_refl)). unfold lru_step. destruct (rw_req r) eqn:T; cbn [fst].
  - destruct (N.eqb_spec (l mod nblocks p) (line_of p (cq_addr r) mod nblocks p)) as [E|E]; auto.
    intro I. apply in_firstn in I. destruct I as [I | I]; [apply NB; split; auto|].
    apply in_remove_iff in I. rewrite <- E in I. tauto.
  - destruct (is_amo (cq_type r)); cbn [fst].
    + destruct (N.eqb_spec (l mod nblocks p) (line_of p (cq_addr r) mod nblocks p)) as [E|E]; auto.
      intro I. apply in_remove_iff in I. rewrite <- E in I. tauto.
    + destruct (cq_type r =? T_INV); cbn [fst]; auto.
Qed.

Definition drops (r : creq) (l : N) : Prop :=
  cq_type r = T_INV \/ is_amo (cq_type r) = true /\ line_of p (cq_addr r) = l.

Lemma drops_rw : forall r l, drops r l -> rw_req r = false.
Proof.
  intros r l [E | [E _]]; unfold rw_req.
  - rewrite E. auto.
  - destruct (N.eqb_spec (cq_type r) T_READ) as [X|X]; [rewrite X in E; discriminate|].
    destruct (N.eqb_spec (cq_type r) T_WRITE) as [Y|Y]; [rewrite Y in E; discriminate|]. auto.
Qed.

Lemma lru_dropped : forall L r l, drops r l -> ~ In l (fst (lru_step p L r) (l mod nblocks p)).
Proof.
  intros L r l D. pose proof (drops_rw r l D) as N. unfold lru_step. rewrite N.
  destruct D as [E | [E EL]].
  - rewrite E. change (is_amo T_INV) with false. change (T_INV =? T_INV) with true. cbn [fst]. auto.
  - rewrite E. cbn [fst]. rewrite EL, N.eqb_refl. intro I. apply in_remove_iff in I. tauto.
Qed.

Theorem sys_dropped : forall s0 is m0 m rq rs A r B r' C y, sys_run p s0 is m0 m rq rs ->
  let tr := trace_of p s0 is in
  accepted tr = A ++ r :: B ++ r' :: C -> drops r (line_of p (cq_addr r')) ->
  (forall x, In x B -> ~ same_line_rw (line_of p (cq_addr r')) x) ->
  nth_error (responses tr) (length (A ++ r :: B)) = Some y -> cr_test y = 0.
Proof.
  intros s0 is m0 m rq rs A r B r' C y R tr E D NB Y. destruct (sys_tests _ _ _ _ _ _ R) as (rest & T). fold tr in T.
  rewrite E in T. set (n := length (A ++ r :: B)) in *.
  assert (Y1 : nth_error (lru_tests p lru_empty (A ++ r :: B ++ r' :: C)) n = Some (cr_test y)).
  { rewrite T. rewrite nth_error_app1; [rewrite nth_error_map, Y; auto|]. rewrite map_length. apply nth_error_Some. congruence. }
  replace (A ++ r :: B ++ r' :: C) with ((A ++ r :: B) ++ r' :: C) in Y1 by (rewrite <- app_assoc; auto).
  rewrite lru_tests_app, nth_error_app2 in Y1 by (rewrite lru_tests_len; auto).
  rewrite lru_tests_len in Y1. fold n in Y1. rewrite Nat.sub_diag in Y1. cbn [lru_tests nth_error] in Y1. injection Y1 as Y1. rewrite <- Y1.
  rewrite lru_run_app. cbn [lru_run].
  pose proof (lru_gone B _ _ NB (lru_dropped (lru_run p lru_empty A) r _ D)) as G.
  unfold lru_step. destruct (rw_req r'); cbn [snd].
  - match goal with |- (if ?d then _ else _) = _ => destruct d as [I|I]; auto end. contradiction.
  - destruct (is_amo (cq_type r')); auto. destruct (cq_type r' =? T_INV); auto.
Qed.

(** FLUSH does not change what is resident *)
Theorem sys_flush_keeps : forall s0 is m0 m rq rs A f B, sys_run p s0 is m0 m rq rs ->
  let tr := trace_of p s0 is in
  accepted tr = A ++ f :: B -> cq_type f = T_FLUSH ->
  exists rest, lru_tests p lru_empty A ++ 0 :: skipn (length A) (lru_tests p lru_empty (A ++ B)) = map cr_test (responses tr) ++ rest.
Proof.
  intros s0 is m0 m rq rs A f B R tr E T. destruct (sys_tests _ _ _ _ _ _ R) as (rest & X). fold tr in X. exists rest.
  rewrite <- X, E, !lru_tests_app. cbn [lru_tests]. rewrite skipn_app, lru_tests_len, Nat.sub_diag, skipn_all2 by (rewrite lru_tests_len; auto).
  cbn [skipn app]. unfold lru_step, rw_req. rewrite T. auto.
Qed.

(** *** Memory requests belong to the last accepted request *)
Theorem sys_sent : forall s0 is i m0 m rq rs q, sys_run p s0 (is ++ [i]) m0 m rq rs ->
  o_mreq (output p (fst (run p s0 is)) i) = Some q ->
  exists A r G g, accepted (trace_of p s0 is) = A ++ [r] /\ length (responses (trace_of p s0 is)) = length A /\
    length A = length G /\ traffic p none lru_empty m0 (A ++ [r]) (G ++ [g]) /\ In q g.
Proof.
  intros s0 is i m0 m rq rs q R OQ. destruct (sys_send p W _ _ _ _ _ _ _ _ R OQ) as (A & r & c & mb & Q & e & EA & WF & H & IN & M).
  apply in_split in IN. destruct IN as (l1 & l2 & TR).
  assert (F : Forall2 qmatch Q (map snd Q)).
  { clear. induction Q as [|x Q IH]; cbn; constructor; auto. unfold qmatch, mreq_match. tauto. }
  destruct (hist_flat p W _ _ _ _ _ _ H) as (I & V & _).
  destruct (hist_traffic _ _ _ _ _ _ H _ F) as (G & LG & CG & TG & PG & LI & _).
  destruct (traf_step p W c mb _ _ (flat_mem p m0 A) r 0 I PG LI V WF) as [T1 _].
  exists A, r, G, (l1 ++ q :: l2). split; auto. split; [apply (hist_length p _ _ _ _ _ _ H)|]. split; auto. split; [|apply in_or_app; right; left; auto].
  apply traf_snoc; auto. split; auto. eapply traf_match; [|exact T1]. rewrite TR.
  apply Forall2_app; [apply match_refl|]. constructor; auto. apply match_refl.
Qed.

(** INV and hits: no memory request *)
Theorem sys_inv_quiet : forall s0 is i m0 m rq rs A r, sys_run p s0 (is ++ [i]) m0 m rq rs ->
  accepted (trace_of p s0 is) = A ++ [r] -> 
  cq_type r = T_INV \/ rw_req r = true /\ In (line_of p (cq_addr r)) (lru_run p lru_empty A (line_of p (cq_addr r) mod nblocks p)) ->
  o_mreq (output p (fst (run p s0 is)) i) = None.
Proof.
  intros s0 is i m0 m rq rs A r R EA D. destruct (o_mreq (output p (fst (run p s0 is)) i)) as [q|] eqn:OQ; auto. exfalso.
  destruct (sys_sent _ _ _ _ _ _ _ _ R OQ) as (A' & r' & G & g & EA' & _ & LG & TG & IN).
  rewrite EA in EA'. apply app_inj_tail in EA'. destruct EA'; subst A' r'.
  apply traf_snoc in TG; auto. destruct TG as [_ TG]. unfold req_traffic in TG. destruct D as [E | (T & I)].
  - unfold rw_req in TG. rewrite E in TG. cbn in TG. subst g. destruct IN.
  - rewrite T in TG. match type of TG with (if ?d then _ else _) => destruct d; [subst g; destruct IN | contradiction] end.
Qed.

(** *** Nothing pending, nothing to write back *)
Definition clean (P : N -> bool) : Prop := forall k, k * 4 < 2 ^ p_abw p -> P k = false.
Lemma clean_clears : forall g P, clean P -> clean (clears p P g).
Proof.
  induction g as [|q g IH]; intros P H; cbn; auto. apply IH. intros k K. unfold clear. rewrite H; auto.
Qed.
Lemma pow_words : exists z, 2 ^ p_abw p = 4 * z.
Proof.
  exists (2 ^ (p_abw p - 2)). change 4 with (2 ^ 2). rewrite <- N.pow_add_r. f_equal. pose proof (abw_sum p W). pose proof (offw_ge3 p W). lia.
Qed.
Lemma clean_nowb : forall P m q, clean P -> ~ wb_ok p P m q.
Proof.
  intros P m q CL [h1 (h2 & h2') h3 h4 h5 h6]. apply h4. apply N.bits_inj; intro j. rewrite N.bits_0, h5.
  destruct (N.ltb_spec j (p_clw p / 32)) as [J|J]; auto. cbn [andb]. apply CL.
  rewrite (clw_words p) in J. rewrite (line_bytes_pow p W) in h2.
  destruct (addr_add p W (mq_addr q) (4 * j) h2') as (X & _).
  - rewrite a_off_mod, h2. rewrite (off_words p W). lia.
  - unfold word_num. pose proof (N.div_mod' (mq_addr q) 4). set (z := mq_addr q / 4) in *. set (y := mq_addr q mod 4) in *. clearbody z y. lia.
Qed.
Lemma clean_wbs : forall P m g, clean P -> wbs_ok p P m g -> g = [].
Proof. intros P m [|q g] CL H; auto. destruct H as [H _]. exfalso. eapply clean_nowb; eauto. Qed.

Lemma clean_run : forall B G P L m, clean P -> (forall x, In x B -> cq_type x <> T_WRITE) -> traffic p P L m B G -> clean (pend_run p P B G).
Proof.
  induction B as [|r B IH]; intros [|g G] P L m CL NB T; cbn [pend_run traffic] in *; auto; try contradiction.
  destruct T as [T1 T2]. eapply IH; [| |exact T2]; [|intros; apply NB; right; auto].
  unfold mark. assert (X : (cq_type r =? T_WRITE) = false) by (apply N.eqb_neq; apply NB; left; auto). rewrite X.
  apply clean_clears; auto.
Qed.

Lemma traf_app : forall A G B G' P L m, length A = length G ->
  (traffic p P L m (A ++ B) (G ++ G') <->
   traffic p P L m A G /\ traffic p (pend_run p P A G) (lru_run p L A) (flat_mem p m A) B G').
Proof.
  induction A as [|x A IH]; intros [|y G] B G' P L m LE; try discriminate; cbn [app traffic pend_run lru_run flat_mem].
  - tauto.
  - rewrite (IH G) by (cbn in LE; lia). tauto.
Qed.
Lemma traf_len : forall A G P L m, traffic p P L m A G -> length A = length G.
Proof. induction A as [|x A IH]; intros [|y G] P L m T; cbn in *; auto; try contradiction. f_equal. eapply IH. apply T. Qed.

Theorem sys_flush_quiet : forall s0 is i m0 m rq rs A f B f', sys_run p s0 (is ++ [i]) m0 m rq rs ->
  accepted (trace_of p s0 is) = A ++ f :: B ++ [f'] -> cq_type f = T_FLUSH -> cq_type f' = T_FLUSH ->
  (forall x, In x B -> cq_type x <> T_WRITE) -> o_mreq (output p (fst (run p s0 is)) i) = None.
Proof.
  intros s0 is i m0 m rq rs A f B f' R EA TF TF' NB. destruct (o_mreq (output p (fst (run p s0 is)) i)) as [q|] eqn:OQ; auto. exfalso.
  destruct (sys_sent _ _ _ _ _ _ _ _ R OQ) as (A' & r' & G & g & EA' & _ & LG & TG & IN).
  rewrite EA, app_comm_cons, app_assoc in EA'. apply app_inj_tail in EA'. destruct EA'; subst A' r'.
  apply traf_snoc in TG; auto. destruct TG as [TG T2].
  rewrite app_length in LG. cbn [length] in LG.
  rewrite <- (firstn_skipn (length A) G) in TG, T2.
  assert (L1 : length A = length (firstn (length A) G)) by (rewrite firstn_length; lia).
  destruct (skipn (length A) G) as [|gf GB] eqn:SK.
  { pose proof (f_equal (@length _) SK) as Z. rewrite skipn_length in Z. cbn in Z. lia. }
  pose proof TG as TG0. apply traf_app in TG; auto. destruct TG as [TA TB]. cbn [traffic] in TB. destruct TB as [TB1 TB2].
  assert (PR : forall A G B G' P, length A = length G -> pend_run p P (A ++ B) (G ++ G') = pend_run p (pend_run p P A G) B G').
  { clear. induction A as [|x A IH]; intros [|y G] B G' P LE; try discriminate; cbn [app pend_run]; auto. }
  rewrite PR in T2 by auto. cbn [pend_run] in T2.
  assert (CL : clean (mark p (clears p (pend_run p none A (firstn (length A) G)) (writes gf)) f)).
  { unfold mark. rewrite TF. change (T_FLUSH =? T_WRITE) with false. cbn iota.
    unfold req_traffic, rw_req in TB1. rewrite TF in TB1. 
    change ((T_FLUSH =? T_READ) || (T_FLUSH =? T_WRITE)) with false in TB1. change (is_amo T_FLUSH) with false in TB1.
    change (T_FLUSH =? T_FLUSH) with true in TB1. cbn iota in TB1. destruct TB1 as [WB CLR].
    assert (WE : writes gf = gf).
    { clear - WB. revert WB. generalize (pend_run p none A (firstn (length A) G)) (flat_mem p m0 A). 
      induction gf as [|x l IH]; intros P M H; auto. destruct H as [[h1 _ _ _ _ _] H]. cbn [writes filter]. unfold is_write at 1. rewrite h1.
      change (T_WRITE =? T_WRITE) with true. cbn iota. f_equal. eapply IH; eauto. }
    rewrite WE. exact CLR. }
  pose proof (clean_run B GB _ _ _ CL NB TB2) as CL2.
  unfold req_traffic, rw_req in T2. rewrite TF' in T2. 
  change ((T_FLUSH =? T_READ) || (T_FLUSH =? T_WRITE)) with false in T2. change (is_amo T_FLUSH) with false in T2.
  change (T_FLUSH =? T_FLUSH) with true in T2. cbn iota in T2. destruct T2 as [WB _].
  apply clean_wbs in WB; auto. subst g. destruct IN.
Qed.
End F.
