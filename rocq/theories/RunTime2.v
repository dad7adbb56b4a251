(** C60: the cycle limit of the repository's tests. *)
From Coq Require Import NArith PeanoNat List Bool Lia.
From Verif Require Import Bits Params Msg Rtl Mem Spec System ParamsProofs Tl SysProofs SysFacts Hide Obliv Proto Fl FlModel Bench LiveSpec Live TimeSpec Service Service2 RunTime.
Import ListNotations.
Open Scope N_scope.

Lemma most_bound : forall p R, (most_time p R <= 9 * length R + (5 * N.to_nat (total_lines p) + 4) * length (filter walks R))%nat.
Proof.
  intros p R. induction R as [|r R IH]; [cbn; lia|]. change (most_time p (r :: R)) with (service p r (max_traffic p r) + 1 + most_time p R)%nat.
  cbn [length filter]. change (walks r) with ((cq_type r =? T_INV) || (cq_type r =? T_FLUSH)). unfold service, max_traffic. destruct (cq_type r =? T_INV); cbn [orb].
  - cbn [length]. rewrite Nat.mul_succ_r. lia.
  - destruct (cq_type r =? T_FLUSH); cbn [length]; [rewrite Nat.mul_succ_r; lia|]. destruct (is_amo (cq_type r)); lia.
Qed.
Lemma most_prefix : forall p A B, (most_time p A <= most_time p (A ++ B))%nat.
Proof. intros p A B. rewrite most_app. lia. Qed.
Theorem bench_in_time : forall p init xs, wf_params p -> passes p init xs ->
  forall s0 is m0 m rq rs, sys_run p s0 is m0 m rq rs ->
  (forall a, a < 2 ^ 32 -> trunc 8 (m0 a) = trunc 8 (load_words init a)) ->
  (exists rest, map fst xs = accepted (trace_of p s0 is) ++ rest) ->
  (N.to_nat (total_lines p) + most_time p (map fst xs) < offer_cycles (length xs) [] (trace_of p s0 is))%nat ->
  responses (trace_of p s0 is) = map snd xs.
Proof.
  intros p init xs W P s0 is m0 m rq rs R M0 [rest E] L.
  destruct (P s0 is m0 m rq rs R M0) as [rest2 E2]; [exists rest; auto|].
  pose proof (most_prefix p (accepted (trace_of p s0 is)) rest) as MP. rewrite <- E in MP.
  pose proof (proto_most p W (length xs) is s0 (sys_proto p _ _ _ _ _ _ R)) as Q. specialize (Q ltac:(lia)).
  pose proof (f_equal (@length _) E2) as EL. rewrite map_length, app_length in EL.
  destruct rest2; [rewrite app_nil_r in E2; auto|]. cbn [length] in EL. lia.
Qed.
Theorem hyp_in_time : forall p w ds xs, hyp_config p -> (length ds <= 200)%nat ->
  Forall (drawable p 0 (hyp_max p)) ds -> hyp_bench p w ds = Some xs ->
  forall s0 is m0 m rq rs, sys_run p s0 is m0 m rq rs ->
  (forall a, a < 2 ^ 32 -> trunc 8 (m0 a) = trunc 8 (load_words (rand_mem 0 (hyp_max p) w) a)) ->
  (exists rest, map fst xs = accepted (trace_of p s0 is) ++ rest) ->
  (N.to_nat (total_lines p) + most_time p (map fst xs) < offer_cycles (length xs) [] (trace_of p s0 is))%nat ->
  responses (trace_of p s0 is) = map snd xs.
Proof.
  intros p w ds xs HC L F E. destruct (hyp_sound p w ds HC L F) as (xs' & E' & _ & _ & P). rewrite E in E'. injection E' as <-.
  exact (bench_in_time p _ xs (proj1 (hyp_ok p HC)) P).
Qed.

(** *** A list that cannot be finished in time *)
Definition inv_draw : draw := mkDraw T_INV 0 0 0.
Lemma invs : forall nb na nk p os n s s' xs,
  fl_calls nb na nk p s (map (fun od => bench_call p (fst od) (snd od)) (combine os (repeat inv_draw n))) = Some (s', xs) ->
  Forall (fun r => cq_type r = T_INV) (map fst xs).
Proof.
  intros nb na nk p os. induction os as [|o os IH]; intros n s s' xs H; [cbn in H; injection H as <- <-; constructor|].
  destruct n; [cbn in H; injection H as <- <-; constructor|]. cbn [repeat combine map fl_calls fst snd] in H.
  change (bench_call p o inv_draw) with (FInv o) in H. cbn [fl_call] in H.
  match type of H with match fl_calls _ _ _ _ ?s1 ?cs with _ => _ end = _ => destruct (fl_calls nb na nk p s1 cs) as [[s2 ys]|] eqn:R end; [|discriminate H].
  injection H as <- <-. cbn [map fst]. constructor; [reflexivity | eapply IH; eauto].
Qed.
Lemma least_invs : forall p R, Forall (fun r => cq_type r = T_INV) R -> least_time p R = ((N.to_nat (total_lines p) + 2) * length R)%nat.
Proof.
  intros p R F. induction F as [|r R H F IH]; [cbn; lia|]. change (least_time p (r :: R)) with (busy p r + least_time p R)%nat. rewrite IH.
  unfold busy, service. rewrite H. change (T_INV =? T_INV) with true. cbv iota. cbn [length]. rewrite Nat.mul_succ_r. lia.
Qed.
Definition p_long : params := hyp_params 2 64 32 256.
Lemma long_config : hyp_config p_long.
Proof. exists 2, 64, 32, 8. split; auto. split; [left; auto|]. split; [lia|reflexivity]. Qed.
Lemma long_lines : total_lines p_long = 512.
Proof. vm_compute. reflexivity. Qed.
Lemma long_draws : forall n, Forall (drawable p_long 0 (hyp_max p_long)) (repeat inv_draw n).
Proof.
  intros n. apply Forall_forall. intros d I. apply repeat_spec in I. subst d. unfold drawable, inv_draw. cbn [d_type d_data d_addr d_order].
  split; [cbn; tauto|]. split; [lia|]. split; [lia|]. apply N.le_0_l.
Qed.
Theorem times_out : exists p w ds xs, hyp_config p /\ (length ds <= 200)%nat /\ Forall (drawable p 0 (hyp_max p)) ds /\ hyp_bench p w ds = Some xs /\
  forall s0 is, proto_run p s0 is -> (exists rest, map fst xs = accepted (trace_of p s0 is) ++ rest) ->
  N.of_nat (length is) <= 20000 -> (length (responses (trace_of p s0 is)) < length xs)%nat.
Proof.
  exists p_long, (fun _ => 0), (repeat inv_draw 40).
  assert (L200 : (length (repeat inv_draw 40) <= 200)%nat) by (rewrite repeat_length; lia).
  destruct (hyp_sound p_long (fun _ => 0) _ long_config L200 (long_draws 40)) as (xs & E & LX & _ & _).
  exists xs. split; [exact long_config|]. split; [exact L200|]. split; [apply long_draws|]. split; [exact E|].
  intros s0 is P [rest AC] LE. destruct (Nat.lt_ge_cases (length (responses (trace_of p_long s0 is))) (length xs)) as [|GE]; auto. exfalso.
  rewrite repeat_length in LX.
  assert (F : Forall (fun r => cq_type r = T_INV) (map fst xs)).
  { unfold hyp_bench, bench in E. destruct (bench_ok _ _); [|discriminate E].
    match type of E with match fl_calls ?nb ?na ?nk ?pp ?s1 ?cs with _ => _ end = _ => destruct (fl_calls nb na nk pp s1 cs) as [[s2 ys]|] eqn:R end; [|discriminate E].
    injection E as <-. eapply invs. exact R. }
  assert (W := proj1 (hyp_ok _ long_config)).
  assert (NE : responses (trace_of p_long s0 is) <> []) by (intros X; rewrite X in GE; cbn [length] in GE; lia).
  pose proof (proto_least p_long W is s0 P NE) as B. cbv zeta in B. rewrite least_invs in B.
  - rewrite long_lines, firstn_length in B. pose proof (f_equal (@length _) AC) as LA. rewrite map_length, app_length in LA.
    destruct (proto_lift p_long is s0 (fun _ => 0) P) as (is' & m & S & HI & EA).
    pose proof (hide_trace p_long _ _ s0 HI) as HT. destruct (hide_len _ _ HT) as (LR & LA2 & _).
    destruct (sys_state p_long W _ _ _ _ _ _ S) as (a & ST). pose proof (counts p_long _ _ _ _ _ _ _ _ ST) as CN.
    destruct (a_cur a); lia.
  - apply Forall_forall. intros r I. assert (I2 : In r (accepted (trace_of p_long s0 is))).
    { rewrite <- (firstn_skipn (length (responses (trace_of p_long s0 is)))). apply in_or_app; left; auto. }
    rewrite Forall_forall in F. apply F. rewrite AC. apply in_or_app; auto.
Qed.
