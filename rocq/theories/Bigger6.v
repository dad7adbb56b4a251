(** C73: the time a program takes on a cache and on a bigger one. *)
From Coq Require Import Arith NArith List Bool Lia.
From Verif Require Import Bits Params Msg Rtl Mem Spec System ParamsProofs Traffic MetaProofs PendProofs TrafProofs ExactSpec Exact Exact2 Hide MultiSys Proto LiveMulti MultiFacts
  TimeSpec ScheduleSpec LatSpec Schedule2 Lat4 Bigger BiggerSpec Bigger2 Bigger3 Bigger4 Bigger5.
Import ListNotations.
Open Scope N_scope.

Section O.
Variable p : params.
Hypothesis W : wf_params p.
Variable L : nat.

Lemma starts_nth : forall R t x n, (n < length R)%nat -> nth_error (lat_starts_from p L t x R) n = Some (lat_next_from p L t x (firstn n R)).
Proof.
  induction R as [|r R IH]; intros t x [|n] H; cbn [length] in H; try lia; [reflexivity|]. cbn [lat_starts_from nth_error firstn lat_next_from]. apply IH. lia.
Qed.
Lemma ends_nth : forall R t x n r, nth_error R n = Some r ->
  nth_error (lat_ends_from p L t x R) n = Some (lat_next_from p L t x (firstn n R) + lat_service p L r (made p (x_after p x (firstn n R)) r))%nat.
Proof.
  induction R as [|r0 R IH]; intros t x [|n] r H; try discriminate H.
  - cbn in H. inversion H; subst. reflexivity.
  - cbn [lat_ends_from nth_error firstn lat_next_from x_after] in *. apply IH. auto.
Qed.

(** write-backs apart *)
Definition notw (x : xst) (r : creq) : list shape := filter (fun s => negb (isW s)) (fst (x_step p x r)).
Definition base (x : xst) (r : creq) : nat :=
  match notw x r with [] => if first_write p x r then 2 else 1 | _ => (if is_amo (cq_type r) then 5 else 6) + (L - 1) end%nat.
Definition base_end (x : xst) (r : creq) : nat :=
  match notw x r with [] => 2 | _ => (if is_amo (cq_type r) then 6 else 7) + (L - 1) end%nat.
Lemma made_split : forall x r, wfx p x -> walks r = false ->
  made p x r = (cnt isW (fst (x_step p x r)) + length (notw x r))%nat /\ (notw x r = [] -> made p x r = 0%nat) /\ (length (notw x r) <= 1)%nat.
Proof.
  intros x r X K. assert (LEN : forall S : list shape, length S = (cnt isW S + length (filter (fun s => negb (isW s)) S))%nat).
  { intros S. unfold cnt. induction S as [|s S IH]; cbn [filter length]; auto. destruct (isW s); cbn [andb negb length]; lia. }
  split; [apply LEN|]. unfold notw. rewrite (step_notw p x r X). unfold walks in K. rewrite K.
  unfold made, x_step. cbv zeta. apply orb_false_iff in K. destruct K as [-> ->].
  destruct (is_amo (cq_type r)); [split; [discriminate | cbn; lia]|]. unfold x_rw. cbv zeta.
  destruct (x_way p x (line_of p (cq_addr r))) as [w|].
  - destruct (x_slot x (line_of p (cq_addr r) mod nblocks p) w) as [[v [|]]|]; cbn [fst length]; split; auto; discriminate.
  - split; [discriminate | cbn; lia].
Qed.
Lemma gap_base : forall x r, wfx p x -> walks r = false -> lat_gap p L x r = (cnt isW (fst (x_step p x r)) + base x r)%nat /\
  lat_service p L r (made p x r) = (cnt isW (fst (x_step p x r)) + base_end x r)%nat.
Proof.
  intros x r X K. destruct (made_split x r X K) as (M1 & M2 & M3). unfold lat_gap, lat_service, gap, bursts, service, base, base_end.
  unfold walks in K. apply orb_false_iff in K. destruct K as [K1 K2]. rewrite K1, K2.
  destruct (notw x r) as [|s [|s' t]] eqn:E; cbn [length] in *; [|destruct (made p x r) eqn:EM|lia].
  - rewrite (M2 eq_refl) in *. assert (C : cnt isW (fst (x_step p x r)) = 0%nat) by lia. rewrite C. destruct (first_write p x r); lia.
  - lia.
  - clear - M1. set (c := cnt isW _) in *. clearbody c. destruct (is_amo (cq_type r)); split; lia.
Qed.
Fixpoint bases (x : xst) (R : list creq) : nat := match R with [] => 0%nat | r :: R => (base x r + bases (snd (x_step p x r)) R)%nat end.
Lemma next_sum : forall R t x, wfx p x -> Forall (wf_req p) R -> Forall (fun r => walks r = false) R ->
  lat_next_from p L t x R = (t + cnt isW (concat (x_run p x R)) + bases x R)%nat.
Proof.
  induction R as [|r R IH]; intros t x X F K; [cbn; lia|]. cbn [lat_next_from bases x_run concat]. inversion F; inversion K; subst.
  rewrite IH; auto; [|apply wfx_step; auto]. destruct (gap_base x r X) as [-> _]; auto. rewrite cnt_app. lia.
Qed.
Lemma wfx_after : forall R x, wfx p x -> Forall (wf_req p) R -> wfx p (x_after p x R).
Proof. induction R as [|r R IH]; intros x X F; auto. inversion F; subst. cbn [x_after]. apply IH; auto. apply wfx_step; auto. Qed.

End O.

(** only types, addresses and lengths matter *)
Lemma gap_addr : forall p L x r r', addr_of r = addr_of r' -> lat_gap p L x r = lat_gap p L x r' /\
  lat_service p L r (made p x r) = lat_service p L r' (made p x r').
Proof.
  intros p L x r r' E. unfold addr_of in E. inversion E as [[E1 E2 E3]]. unfold lat_gap, lat_service, gap, bursts, service, made, first_write, words_of, req_bytes, x_step, mark, req_bytes.
  rewrite E1, E2, E3. auto.
Qed.

Lemma nth_firstn : forall A (l : list A) n m, (n < m)%nat -> nth_error (firstn m l) n = nth_error l n.
Proof. intros A l. induction l as [|x l IH]; intros [|n] [|m] H; cbn [firstn nth_error]; auto; try lia. apply IH. lia. Qed.
Lemma firstn_fewer : forall A (l l' : list A) n, firstn (S n) l = firstn (S n) l' -> firstn n l = firstn n l'.
Proof. intros A l l' n E. apply (f_equal (firstn n)) in E. rewrite !firstn_firstn in E. replace (Init.Nat.min n (S n)) with n in E by lia. auto. Qed.
Lemma next_addr : forall p L R R' t x, map addr_of R = map addr_of R' -> lat_next_from p L t x R = lat_next_from p L t x R' /\ x_after p x R = x_after p x R'.
Proof.
  intros p L. induction R as [|r R IH]; intros [|r' R'] t x E; try discriminate E; auto. cbn [map] in E. injection E as E1 E2 E3 E4.
  cbn [lat_next_from x_after]. destruct (gap_addr p L x r r') as [-> _]; [unfold addr_of; congruence|]. rewrite (x_step_addr p x r r') by auto. apply IH. auto.
Qed.

Section C.
Variables p q : params.
Hypothesis Wp : wf_params p.
Hypothesis Wq : wf_params q.
Hypothesis B : bigger p q.
Variables L L' : nat.
Hypothesis HL : (L' <= L)%nat.

Lemma words_of_same : forall r, words_of q r = words_of p r.
Proof. intros r. unfold words_of, req_bytes. destruct B as (_ & -> & _). auto. Qed.
Lemma first_le : forall x Y r, rel p q x Y -> first_write q Y r = true -> first_write p x r = true.
Proof.
  intros x Y r R. unfold first_write. rewrite words_of_same. destruct (cq_type r =? T_WRITE); auto. cbn [andb]. intros H.
  apply negb_true_iff in H. apply negb_true_iff. destruct (forallb (x_pend x) (words_of p r)) eqn:E; auto. exfalso.
  assert (T : forallb (x_pend Y) (words_of p r) = true); [|congruence]. apply forallb_forall. intros k I. apply (r_pend _ _ _ _ R).
  rewrite forallb_forall in E. auto.
Qed.
Lemma base_le : forall x Y r, rel p q x Y -> (base q L' Y r <= base p L x r)%nat /\ (base_end q L' Y r <= base_end p L x r)%nat.
Proof.
  intros x Y r R. unfold base, base_end, notw. pose proof (first_le x Y r R) as FW. destruct (step_notw_cmp p q B x Y r R) as [->| ->].
  - destruct (filter _ _); [destruct (first_write q Y r) eqn:E; [rewrite (FW eq_refl) | destruct (first_write p x r)]; lia | destruct (is_amo (cq_type r)); lia].
  - destruct (filter _ _); [destruct (first_write q Y r) eqn:E; [rewrite (FW eq_refl) | destruct (first_write p x r)]; lia|].
    destruct (is_amo (cq_type r)), (first_write q Y r); lia.
Qed.
Lemma rel_after : forall R x Y, rel p q x Y -> Forall (wf_req p) R -> Forall (wf_req q) R -> rel p q (x_after p x R) (x_after q Y R).
Proof.
  induction R as [|r R IH]; intros x Y R0 F F'; auto. inversion F; inversion F'; subst. cbn [x_after]. destruct (rel_step p q Wp Wq B x Y r R0) as [R1 _]; auto.
Qed.
Lemma bases_le : forall R x Y, rel p q x Y -> Forall (wf_req p) R -> Forall (wf_req q) R -> (bases q L' Y R <= bases p L x R)%nat.
Proof.
  induction R as [|r R IH]; intros x Y R0 F F'; auto. inversion F; inversion F'; subst. cbn [bases]. destruct (rel_step p q Wp Wq B x Y r R0) as [R1 _]; auto.
  specialize (IH _ _ R1 ltac:(auto) ltac:(auto)). destruct (base_le x Y r R0) as [H _]. lia.
Qed.
Theorem next_le : forall R, Forall (wf_req p) R -> Forall (wf_req q) R -> Forall (fun r => walks r = false) R ->
  (lat_next q L' R + N.to_nat (total_lines p) <= lat_next p L R + N.to_nat (total_lines q))%nat /\
  forall r R0, R = R0 ++ [r] -> 
   (lat_next q L' R0 + lat_service q L' r (made q (x_after q x_empty R0) r) + N.to_nat (total_lines p) <=
    lat_next p L R0 + lat_service p L r (made p (x_after p x_empty R0) r) + N.to_nat (total_lines q))%nat.
Proof.
  assert (WR : forall R, Forall (wf_req p) R -> Forall (wf_req q) R -> (cnt isW (concat (predict q R)) <= cnt isW (concat (predict p R)))%nat).
  { intros R F F'. destruct (predict_le p q Wp Wq B R F F') as (_ & _ & _ & _ & H). auto. }
  intros R F F' K. pose proof (rel_empty p q Wp Wq) as R0. split.
  - unfold lat_next. rewrite (next_sum p Wp L R), (next_sum q Wq L' R); auto; try apply R0. pose proof (WR R F F') as H1. unfold predict in H1. pose proof (bases_le R _ _ R0 F F') as H2. lia.
  - intros r A ->. pose proof (WR _ F F') as G1. unfold predict in G1. apply Forall_app in F, F', K. destruct F as [F F1], F' as [F' F1'], K as [K K1]. inversion F1; inversion F1'; inversion K1; subst.
    unfold lat_next. rewrite (next_sum p Wp L A), (next_sum q Wq L' A) by (auto; apply R0). pose proof (bases_le A _ _ R0 F F') as G2. pose proof (rel_after A _ _ R0 F F') as RA.
    destruct (gap_base p L (x_after p x_empty A) r) as [_ ->]; auto; try apply RA. destruct (gap_base q L' (x_after q x_empty A) r) as [_ ->]; auto; try apply RA.
    destruct (base_le _ _ r RA) as [_ G3].
    assert (AP : forall p x, x_run p x (A ++ [r]) = x_run p x A ++ [fst (x_step p (x_after p x A) r)]).
    { clear. intros p. induction A as [|a A IH]; intros x; auto. cbn [app x_run x_after]. rewrite IH. auto. }
    rewrite !AP, !concat_app, !cnt_app in G1. cbn [concat] in G1. rewrite !app_nil_r in G1. lia.
Qed.
End C.

Lemma starts_len : forall p L R t x, length (lat_starts_from p L t x R) = length R.
Proof. intros p L. induction R as [|r R IH]; intros t x; auto. cbn [lat_starts_from length]. rewrite IH. auto. Qed.
Lemma nth_split' : forall A (l : list A) n x, nth_error l n = Some x -> firstn (S n) l = firstn n l ++ [x].
Proof. intros A l. induction l as [|y l IH]; intros [|n] x H; try discriminate H; [inversion H; auto|]. cbn [firstn app nth_error] in *. rewrite <- (IH n x H). auto. Qed.

(** *** Two runs *)
Section T.
Variables p q : params.
Hypothesis Wp : wf_params p.
Hypothesis Wq : wf_params q.
Hypothesis B : bigger p q.
Variables L L' : nat.
Hypothesis HL : (1 <= L' <= L)%nat.

Lemma nth_le : forall R R' j t t', Forall (wf_req p) R -> Forall (wf_req q) R' ->
  firstn (S j) (map addr_of R) = firstn (S j) (map addr_of R') -> Forall (fun r => walks r = false) (firstn (S j) R) ->
  ((nth_error (lat_starts p L R) j = Some t /\ nth_error (lat_starts q L' R') j = Some t') \/
   (nth_error (lat_ends p L R) j = Some t /\ nth_error (lat_ends q L' R') j = Some t')) ->
  (t' + N.to_nat (total_lines p) <= t + N.to_nat (total_lines q))%nat.
Proof.
  intros R R' j t t' F F' E K H.
  assert (LJ : (j < length R)%nat /\ (j < length R')%nat).
  { destruct H as [[H1 H2]|[H1 H2]]; unfold lat_starts, lat_ends in *.
    - rewrite <- (starts_len p L R (N.to_nat (total_lines p)) x_empty), <- (starts_len q L' R' (N.to_nat (total_lines q)) x_empty), <- !nth_error_Some. split; congruence.
    - rewrite <- (ends_len p L R (N.to_nat (total_lines p)) x_empty), <- (ends_len q L' R' (N.to_nat (total_lines q)) x_empty), <- !nth_error_Some. split; congruence. }
  destruct LJ as [LJ LJ']. destruct (nth_error R j) as [r|] eqn:ER; [|apply nth_error_None in ER; lia]. destruct (nth_error R' j) as [r'|] eqn:ER'; [|apply nth_error_None in ER'; lia].
  pose proof (nth_split' _ _ _ _ ER) as ES. pose proof (nth_split' _ _ _ _ ER') as ES'.
  rewrite !firstn_map, ES, ES', !map_app in E. cbn [map] in E. apply app_inj_tail in E. destruct E as [E1 E2]. rewrite ES in K.
  assert (FA : Forall (wf_req p) (firstn j R ++ [r])) by (rewrite <- ES; apply Forall_forall; rewrite Forall_forall in F; intros x I; apply F; rewrite <- (firstn_skipn (S j) R); apply in_or_app; auto).
  assert (FA' : Forall (wf_req q) (firstn j R' ++ [r'])) by (rewrite <- ES'; apply Forall_forall; rewrite Forall_forall in F'; intros x I; apply F'; rewrite <- (firstn_skipn (S j) R'); apply in_or_app; auto).
  assert (FQ : Forall (wf_req q) (firstn j R ++ [r])).
  { assert (EE : map addr_of (firstn j R ++ [r]) = map addr_of (firstn j R' ++ [r'])) by (rewrite !map_app; cbn [map]; congruence).
    revert EE FA'. generalize (firstn j R ++ [r]) (firstn j R' ++ [r']). clear. induction l as [|a A IH]; intros [|a' A'] E C; try discriminate E; constructor; cbn [map] in E; injection E; inversion C; subst; intros.
    - apply (wf_addr q a' a); auto. unfold addr_of. congruence.
    - eapply IH; eauto. }
  destruct (next_le p q Wp Wq B L L' ltac:(lia) _ FA FQ K) as [_ HE]. specialize (HE r (firstn j R) eq_refl).
  apply Forall_app in FA, FQ, K. destruct (next_le p q Wp Wq B L L' ltac:(lia) (firstn j R) ltac:(tauto) ltac:(tauto) ltac:(tauto)) as [HS _].
  destruct (next_addr q L' (firstn j R) (firstn j R') (N.to_nat (total_lines q)) x_empty E1) as [N1 N2].
  destruct (gap_addr q L' (x_after q x_empty (firstn j R)) r r' E2) as [_ G2]. unfold lat_next in *.
  destruct H as [[H1 H2]|[H1 H2]]; unfold lat_starts, lat_ends in *.
  - rewrite (starts_nth p L) in H1 by auto. rewrite (starts_nth q L') in H2 by auto. inversion H1; inversion H2; subst. rewrite <- N1. exact HS.
  - rewrite (ends_nth p L _ _ _ _ _ ER) in H1. rewrite (ends_nth q L' _ _ _ _ _ ER') in H2. inversion H1; inversion H2; subst. rewrite <- N1, <- N2, <- G2. exact HE.
Qed.

Theorem bigger_time : forall total total' s0 is s0' is' j t t', proto_run p s0 is -> proto_run q s0' is' ->
  let tr := trace_of p s0 is in let tr' := trace_of q s0' is' in
  prompt total [] tr = true -> latency L tr -> (length (accepted tr) <= total)%nat ->
  prompt total' [] tr' = true -> latency L' tr' -> (length (accepted tr') <= total')%nat ->
  firstn (S j) (map addr_of (accepted tr)) = firstn (S j) (map addr_of (accepted tr')) ->
  Forall (fun r => cq_type r <> T_INV /\ cq_type r <> T_FLUSH) (firstn (S j) (accepted tr)) ->
  (nth_error (accept_cycles tr) j = Some t /\ nth_error (accept_cycles tr') j = Some t') \/
  (nth_error (answer_cycles tr) j = Some t /\ nth_error (answer_cycles tr') j = Some t') ->
  (t' + N.to_nat (total_lines p) <= t + N.to_nat (total_lines q))%nat.
Proof.
  intros total total' s0 is s0' is' j t t' P P' tr tr' NW LA LT NW' LA' LT' E K H.
  assert (GL : (1 <= L)%nat) by lia. assert (GL' : (1 <= L')%nat) by lia.
  assert (FW : Forall (wf_req p) (accepted tr)) by (destruct P as (_ & C & _); apply accepted_wf in C; exact C).
  assert (FW' : Forall (wf_req q) (accepted tr')) by (destruct P' as (_ & C & _); apply accepted_wf in C; exact C).
  destruct (schedule p Wp L GL total is s0 P NW LA LT) as [S1 _]. destruct (schedule q Wq L' GL' total' is' s0' P' NW' LA' LT') as [S1' _]. fold tr in S1. fold tr' in S1'.
  pose proof (answers p Wp L GL total is s0 P NW LA LT) as A1. pose proof (answers q Wq L' GL' total' is' s0' P' NW' LA' LT') as A1'. cbv zeta in A1, A1'.
  rewrite (filter_firstn _ _ _ (nth_answered p Wp L GL total is s0 P NW LA LT)) in A1. rewrite (filter_firstn _ _ _ (nth_answered q Wq L' GL' total' is' s0' P' NW' LA' LT')) in A1'.
  fold tr in A1. fold tr' in A1'. rewrite S1, S1', A1, A1' in H.
  assert (NF : forall (l : list nat) n x, nth_error (firstn n l) j = Some x -> nth_error l j = Some x).
  { intros l n x G. rewrite nth_firstn in G; auto. apply Nat.nle_gt. intros N. pose proof (firstn_le_length n l) as N2.
    assert (j < length (firstn n l))%nat by (apply nth_error_Some; congruence). rewrite firstn_length in *. lia. }
  eapply (nth_le (accepted tr) (accepted tr')); eauto; [revert K; apply Forall_impl; intros r [K1 K2]; unfold walks; apply N.eqb_neq in K1, K2; rewrite K1, K2; auto|]. destruct H as [H|[H1 H2]]; [left; exact H | right; split; eapply NF; eauto].
Qed.
End T.
