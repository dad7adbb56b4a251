(** C70 for whole runs. *)
From Coq Require Import NArith List Bool Lia.
From Verif Require Import Bits Params Msg Units Rtl Mem Spec System Traffic Hide Proto SysFacts SysProofs Tl RefineInv RefineProofs InitSpec Init Init2.
Import ListNotations.
Open Scope N_scope.

Section I3.
Variable p : params.
Hypothesis W : wf_params p.
Hypothesis A1 : p_assoc p = 1.

Lemma expl_snoc : forall Y A k r y, explained p k A Y -> length A = length Y -> resp_ok p (knows p k A Y) r y ->
  explained p k (A ++ [r]) (Y ++ [y]) /\ knows p k (A ++ [r]) (Y ++ [y]) = know_next p (knows p k A Y) r y.
Proof.
  induction Y as [|z Y IH]; intros A k r y E L R; destruct A as [|q A]; try discriminate L; cbn [explained knows app] in *; auto.
  destruct E as [E1 E2]. injection L as L. destruct (IH A _ r y E2 L R). auto.
Qed.
Lemma expl_more : forall Y A B k, explained p k A Y -> explained p k (A ++ B) Y.
Proof. induction Y as [|z Y IH]; intros A B k E; [destruct A, B; exact I|]. destruct A as [|q A]; [destruct E|]. cbn [explained app] in *. destruct E. auto. Qed.
Lemma expl_less : forall Y Z A k, explained p k A (Y ++ Z) -> explained p k A Y.
Proof. induction Y as [|z Y IH]; intros Z A k E; [destruct A; exact I|]. destruct A as [|q A]; [destruct E|]. cbn [explained app] in *. destruct E. eauto. Qed.

Definition cur (a : ast) : list creq := match a_cur a with Some u => [u_req u] | None => [] end.
Definition J (ac : list creq) (rs : list cresp) (a : ast) : Prop :=
  exists A0, ac = A0 ++ cur a /\ Forall (wf_req p) (cur a) /\ length A0 = length (rs ++ a_pend a) /\
    explained p know0 A0 (rs ++ a_pend a) /\ kinv p (knows p know0 A0 (rs ++ a_pend a)) (a_c a) /\
    (forall u, a_cur a = Some u -> tl_reqs p (a_c a) (u_req u) = [] -> u_todo u = []).

Lemma J_recv : forall ac rs a i a', J ac rs a -> o_recv a i a' -> J ac rs a'.
Proof. intros ac rs a i a' H R. unfold o_recv in R. destruct (i_mresp_en i); [|subst; exact H].
  inversion R; subst. destruct H as (A0 & E & F & L & X & K & T). exists A0. repeat (split; [assumption|]).
  intros u U. injection U as <-. cbn [u_req u_todo a_c] in *. exact (T _ eq_refl).
Qed.
Lemma J_send : forall ac rs a o a', J ac rs a -> o_send p a o a' -> J ac (rs ++ match o_resp o with Some y => [y] | None => [] end) a'.
Proof.
  intros ac rs a o a' H R. unfold o_send in R. destruct (o_mreq o), (o_resp o); try contradiction.
  - rewrite app_nil_r. inversion R; subst. destruct H as (A0 & E & F & L & X & K & T). exists A0. repeat (split; [assumption|]).
    intros u U. injection U as <-. cbn [u_req u_todo a_c] in *. intros N. specialize (T _ eq_refl N). discriminate T.
  - inversion R; subst. unfold J, cur in *. cbn [a_cur a_pend a_c] in *. rewrite <- app_assoc. exact H.
  - subst. rewrite app_nil_r. exact H.
Qed.
Lemma J_fin : forall ac rs a r y c' , J ac rs a -> a_cur a = None ->
  resp_ok p (knows p know0 ac (rs ++ a_pend a)) r y -> kinv p (know_next p (knows p know0 ac (rs ++ a_pend a)) r y) c' ->
  J (ac ++ [r]) rs (mkA c' None (a_pend a ++ [y])).
Proof.
  intros ac rs a r y c' (A0 & E & F & L & X & K & T) N R K'. unfold cur in *. rewrite N in *. rewrite app_nil_r in E. subst A0.
  destruct (expl_snoc _ _ _ r y X L R) as [X' AF].
  exists (ac ++ [r]). cbn [a_cur a_pend a_c]. rewrite app_nil_r, app_assoc, AF.
  split; [auto|]. split; [constructor|]. split; [|split; [exact X' | split; [exact K' | discriminate]]].
  rewrite !app_length in *. cbn [length]. lia.
Qed.
Lemma J_done : forall ac rs a a', J ac rs a -> o_done p a a' -> J ac rs a'.
Proof.
  intros ac rs a a' H [R|R]; [|subst; exact H]. inversion R as [c r l pd E1 E2]; subst.
  destruct H as (A0 & E & F & L & X & K & T). unfold cur in *. cbn [a_cur a_c a_pend u_req] in *. inversion F as [|? ? WF _]; subst.
  destruct (fin_kinv p W A1 _ c r l K WF) as [RO K'].
  apply (J_fin A0 rs (mkA c None pd) r); auto.
  exists A0. unfold cur. cbn [a_cur a_c a_pend]. rewrite app_nil_r. split; [auto|split; [constructor|split; [auto|split; [auto|split; [auto|discriminate]]]]].
Qed.
Lemma J_acc : forall ac rs a i a', J ac rs a -> o_acc p a i a' -> (i_req_en i = true -> wf_req p (i_req i)) ->
  J (ac ++ if i_req_en i then [i_req i] else []) rs a'.
Proof.
  intros ac rs a i a' H R WF. unfold o_acc in R. destruct (i_req_en i); [|subst; rewrite app_nil_r; exact H].
  inversion R; subst. destruct H as (A0 & E & F & L & X & K & T). unfold cur in *. cbn [a_cur a_c a_pend] in *. rewrite app_nil_r in E. subst A0.
  exists ac. unfold cur. cbn [a_cur a_c a_pend u_req]. split; [auto|split; [constructor; auto|split; [auto|split; [auto|split; [auto|]]]]].
  intros u U. injection U as <-. cbn [u_req u_todo]. auto.
Qed.

Definition cl_ok (i : inp) : Prop := i_req_en i = true -> wf_req p (i_req i) \/ wf_init p (i_req i).
Lemma J_cyc : forall ac rs a i o a', J ac rs a -> acycI p a i o a' -> cl_ok i ->
  J (ac ++ if i_req_en i then [i_req i] else []) (rs ++ match o_resp o with Some y => [y] | None => [] end) a'.
Proof.
  intros ac rs a i o a' H AC C. unfold acycI in AC. destruct (is_ini i) eqn:II.
  - unfold is_ini in II. apply andb_prop in II. destruct II as [EN T]. apply N.eqb_eq in T.
    destruct AC as (a1 & dm & (b1 & b2 & b3 & R1 & R2 & R3 & R4) & CU & ->).
    unfold o_acc in R4. cbn [noreq i_req_en] in R4. subst b3. rewrite EN.
    pose proof (J_done _ _ _ _ (J_send _ _ _ _ _ (J_recv _ _ _ _ _ H R1) R2) R3) as H'.
    assert (WI : wf_init p (i_req i)).
    { destruct (C EN) as [Q|Q]; auto. exfalso. apply wf_req_type in Q. rewrite T in Q. destruct Q as [Q|[Q|[Q|[Q|Q]]]]; discriminate Q. }
    pose proof H' as (A0 & E & F & L & X & K & TT). assert (E' : ac = A0) by (rewrite E; unfold cur; rewrite CU, app_nil_r; auto). subst A0.
    destruct (ini_kinv p W A1 _ _ (i_req i) dm K WI) as [RO K']. eapply J_fin; eauto.
  - destruct AC as (b1 & b2 & b3 & R1 & R2 & R3 & R4). refine (J_acc _ _ _ _ _ _ R4 _).
    + exact (J_done _ _ _ _ (J_send _ _ _ _ _ (J_recv _ _ _ _ _ H R1) R2) R3).
    + intros EN. destruct (C EN) as [Q|Q]; auto. exfalso. destruct Q as (T & _). unfold is_ini in II. rewrite EN, T in II. discriminate II.
Qed.
Lemma J_mreq : forall ac rs a i o a' m, J ac rs a -> acycI p a i o a' -> o_mreq o = Some m ->
  exists A r, ac = A ++ [r] /\ length A = length rs /\ needs_memory p (knows p know0 A rs) r = true.
Proof.
  intros ac rs a i o a' m H AC M.
  assert (S : exists b1 b2 i', o_recv a i' b1 /\ o_send p b1 o b2).
  { unfold acycI in AC. destruct (is_ini i).
    - destruct AC as (a1 & dm & (b1 & b2 & b3 & R1 & R2 & R3 & R4) & _). eauto.
    - destruct AC as (b1 & b2 & b3 & R1 & R2 & R3 & R4). eauto. }
  destruct S as (b1 & b2 & i' & R1 & R2). apply (J_recv _ _ _ _ _ H) in R1.
  unfold o_send in R2. rewrite M in R2. destruct (o_resp o); [contradiction|]. inversion R2; subst.
  destruct R1 as (A0 & E & F & L & X & K & T). unfold cur in *. cbn [a_cur u_req a_pend a_c] in *. inversion F as [|? ? WF _]; subst.
  rewrite app_nil_r in *. exists A0, r. split; [auto|split; [auto|]].
  specialize (T _ eq_refl). cbn [u_req u_todo] in T. pose proof WF as (A & _).
  assert (N : tl_reqs p c r <> []) by (intro N; specialize (T N); discriminate T).
  unfold needs_memory. rewrite (there_hit p W A1 _ c r K A). unfold tl_reqs, tl_isamo in N.
  destruct (N.eqb_spec (cq_type r) T_INIT) as [E1|_].
  { apply wf_req_type in WF. rewrite E1 in WF. destruct WF as [Q|[Q|[Q|[Q|Q]]]]; discriminate Q. }
  destruct (cq_type r =? T_INV); [congruence|]. cbn [orb negb andb].
  destruct WF as (_ & _ & [(Q & _) | [(Q & _) | [(Q & _) | [Q | Q]]]]).
  - rewrite Q in *. cbn in N |- *. destruct (tl_hit p c r); auto.
  - rewrite Q in *. cbn in N |- *. destruct (tl_hit p c r); auto.
  - unfold T_READ, T_WRITE, T_AMO_ADD in *. destruct (N.eqb_spec (cq_type r) 0), (N.eqb_spec (cq_type r) 1); auto; lia.
  - rewrite Q in *. reflexivity.
  - rewrite Q in *. reflexivity.
Qed.

Lemma J_run : forall a tr a', arunsI p a tr a' -> Forall (fun io => cl_ok (fst io)) tr -> forall ac rs, J ac rs a ->
  J (ac ++ accepted tr) (rs ++ responses tr) a'.
Proof.
  induction 1 as [a | a i o a1 tr a2 C R IH]; intros F ac rs H.
  - cbn. rewrite !app_nil_r. exact H.
  - inversion F as [|? ? F1 F2]; subst. cbn [fst] in F1. specialize (IH F2 _ _ (J_cyc _ _ _ _ _ _ H C F1)).
    unfold accepted, responses in *. cbn [flat_map fst snd]. rewrite !app_assoc. exact IH.
Qed.
Lemma aruns_split : forall t1 a x t2 a', arunsI p a (t1 ++ x :: t2) a' -> exists b b', arunsI p a t1 b /\ acycI p b (fst x) (snd x) b'.
Proof.
  induction t1 as [|y t1 IH]; intros a x t2 a' H; cbn [app] in H; inversion H; subst.
  - exists a. eexists. split; [constructor | cbn; eauto].
  - destruct (IH _ _ _ _ H5) as (b & b' & R & C). exists b, b'. split; auto. econstructor; eauto.
Qed.

Lemma J_start : forall c, clean_start p c -> J [] [] (mkA c None []).
Proof.
  intros c [H1 H2]. exists []. cbn. split; [auto|]. split; [auto|]. split; [auto|]. split; [auto|]. split; [|discriminate]. constructor; auto; [|discriminate].
  intros i Hi. destruct (H1 0 i) as [V _]; auto; [rewrite A1; reflexivity|]. unfold ViewDefs.lval. rewrite V. auto.
Qed.

(** *** Legality *)
Lemma legal_runI_snoc : forall is s out i, legal_runI p s out is -> legalI p (fst (run p s is)) (outs p s out is) i -> legal_runI p s out (is ++ [i]).
Proof.
  induction is as [|j is IH]; intros s out i H1 H2; cbn [app legal_runI outs run fst] in *; auto.
  destruct H1 as [H1 H3]. split; auto. apply IH; auto. cbn [run step] in H2. destruct (run p (next p s j) is) as [s2 os]. exact H2.
Qed.
Lemma init_app : forall s0 is is2, init_run p s0 (is ++ is2) -> init_run p s0 is.
Proof.
  intros s0 is is2 (R & C & A). rewrite trace_app in C, A. apply Forall_app in C.
  split; [auto|split; [apply C|]]. intros t1 io t2 E. apply (A t1 io (t2 ++ trace_of p (fst (run p s0 is)) is2)).
  rewrite E, <- app_assoc. auto.
Qed.
Lemma init_legal : forall is s0, init_run p s0 is -> legal_runI p s0 [] is /\ outs p s0 [] is = outstanding (trace_of p s0 is).
Proof.
  induction is as [|i is IH] using rev_ind; intros s0 P; [split; [exact I | auto]|].
  destruct (IH s0 (init_app s0 is [i] P)) as [L O]. destruct (init_app s0 is [i] P) as (_ & _ & A0).
  destruct P as (R & C & A). rewrite trace_snoc in C, A. unfold clientI_ok in C. apply Forall_app in C. destruct C as [_ C]. inversion C as [|? ? C1 _]; subst.
  cbn [fst snd] in C1.
  assert (LG : legalI p (fst (run p s0 is)) (outs p s0 [] is) i).
  { constructor.
    - intros Q. destruct (C1 Q) as [C2 [C3|C3]]; split; auto; [left; eapply wf_req_type; eauto | right; apply C3].
    - intros Q. rewrite O. exact (A (trace_of p s0 is) _ [] eq_refl Q). }
  split; [apply legal_runI_snoc; auto|].
  rewrite outs_snoc, trace_snoc, outstanding_next, O; auto.
  - apply typed_le; auto.
  - intros Q. destruct (li_resp _ _ _ _ LG Q) as (q & l & E & _). rewrite O in E. rewrite E. discriminate.
Qed.

Theorem init_explained : forall s0 is, init_run p s0 is ->
  explained p know0 (accepted (trace_of p s0 is)) (responses (trace_of p s0 is)).
Proof.
  intros s0 is P. destruct (init_legal is s0 P) as [L _]. destruct P as (R & C & _).
  destruct (refinementI p W A1 s0 is R L) as (c0 & a' & CS & AR & _).
  assert (F : Forall (fun io => cl_ok (fst io)) (trace_of p s0 is)).
  { eapply Forall_impl; [|exact C]. intros io H EN. apply H; auto. }
  destruct (J_run _ _ _ AR F [] [] (J_start c0 CS)) as (A0 & E & _ & _ & X & _).
  cbn [app] in E, X. fold (trace_of p s0 is) in E, X. rewrite E. apply expl_more. eapply expl_less. exact X.
Qed.

Theorem init_mreq : forall s0 is t1 io t2 m, init_run p s0 is -> trace_of p s0 is = t1 ++ io :: t2 -> o_mreq (snd io) = Some m ->
  exists A r, accepted t1 = A ++ [r] /\ length A = length (responses t1) /\ needs_memory p (knows p know0 A (responses t1)) r = true.
Proof.
  intros s0 is t1 io t2 m P ET M. destruct (init_legal is s0 P) as [L _]. destruct P as (R & C & _).
  destruct (refinementI p W A1 s0 is R L) as (c0 & a' & CS & AR & _).
  assert (F : Forall (fun io => cl_ok (fst io)) (trace_of p s0 is)).
  { eapply Forall_impl; [|exact C]. intros x H EN. apply H; auto. }
  fold (trace_of p s0 is) in AR. rewrite ET in AR, F. apply Forall_app in F. destruct F as [F _].
  destruct (aruns_split _ _ _ _ _ AR) as (b & b' & R1 & C1).
  pose proof (J_run _ _ _ R1 F [] [] (J_start c0 CS)) as H. cbn [app] in H. eapply J_mreq; eauto.
Qed.

(** *** A READ right after a WRITE_INIT *)
Lemma expl_two : forall A Y k r1 r2 y1 y2, length A = length Y -> explained p k (A ++ [r1; r2]) (Y ++ [y1; y2]) ->
  exists k', resp_ok p (know_next p k' r1 y1) r2 y2.
Proof.
  induction A as [|q A IH]; intros Y k r1 r2 y1 y2 L E; destruct Y as [|z Y]; try discriminate L; cbn [app explained] in E.
  - destruct E as (_ & E & _). eauto.
  - destruct E as [_ E]. injection L as L. eauto.
Qed.
Lemma last_two : forall {X} (l : list X), (2 <= length l)%nat -> exists l' x y, l = l' ++ [x; y].
Proof.
  intros X l. induction l as [|y l _] using rev_ind; cbn; [lia|]. induction l as [|x l _] using rev_ind; cbn; [lia|].
  intros _. exists l, x, y. rewrite <- app_assoc. auto.
Qed.
Lemma bytes_eq : forall n x y, x < 2 ^ (8 * n) -> (forall j, j < n -> slice x (8 * j) (8 * j + 8) = slice y (8 * j) (8 * j + 8)) -> x = trunc (8 * n) y.
Proof.
  clear W A1. intros n x y H E. apply N.bits_inj. intros b. rewrite testbit_trunc. destruct (N.ltb_spec b (8 * n)) as [L|G]; cbn [andb].
  - pose proof (N.div_mod' b 8) as D. pose proof (N.mod_lt b 8 ltac:(lia)) as M. set (q := b / 8) in *. set (z := b mod 8) in *. clearbody q z.
    assert (Q : q < n) by lia. specialize (E q Q).
    assert (T : N.testbit (slice x (8 * q) (8 * q + 8)) z = N.testbit (slice y (8 * q) (8 * q + 8)) z) by (rewrite E; auto).
    rewrite !testbit_slice in T. replace (8 * q + 8 - 8 * q) with 8 in T by lia. apply N.ltb_lt in M. rewrite M in T. cbn [andb] in T.
    replace b with (z + 8 * q) by lia. exact T.
  - destruct (N.eq_dec x 0) as [->|NZ]; [apply N.bits_0|]. apply N.bits_above_log2.
    assert (N.log2 x < 8 * n) by (apply N.log2_lt_pow2; lia). lia.
Qed.

Theorem init_read_back : forall s0 is A r1 r2, init_run p s0 is -> let tr := trace_of p s0 is in
  accepted tr = A ++ [r1; r2] -> length (responses tr) = length (accepted tr) ->
  cq_type r1 = T_INIT -> cq_type r2 = T_READ -> cq_addr r2 = cq_addr r1 -> cq_len r2 = cq_len r1 ->
  exists Y y, responses tr = Y ++ [y] /\ cr_opq y = cq_opq r2 /\ cr_test y = 1 /\
    cr_data y = trunc (8 * req_bytes p r2) (trunc (p_dbw p) (cq_data r1)).
Proof.
  intros s0 is A r1 r2 P tr EA L T1 T2 EAD ELN. pose proof (init_explained s0 is P) as X. fold tr in X. rewrite EA in X.
  rewrite EA, app_length in L. cbn [length] in L.
  destruct (last_two (responses tr)) as (Y & y1 & y & EY); [lia|]. rewrite EY in *. rewrite app_length in L. cbn [length] in L.
  destruct (expl_two A Y know0 r1 r2 y1 y ltac:(lia) X) as (k & [R1 R2 R3 R4 R5 R6 R7]).
  exists (Y ++ [y1]), y. split; [rewrite <- app_assoc; auto|]. split; [auto|].
  assert (KN : know_next p k r1 y1 = learn p k r1 (trunc (p_dbw p) (cq_data r1))) by (unfold know_next; rewrite T1; auto).
  assert (SZ : size p r2 = req_bytes p r2) by (unfold size; rewrite T2; auto).
  assert (SZ1 : req_bytes p r2 <= size p r1).
  { unfold size, req_bytes. rewrite T1, T2, ELN. cbn [as_write cq_type cq_len].
    change (T_INIT =? T_INIT) with true. change (T_WRITE =? T_WRITE) with true. change (T_READ =? T_WRITE) with false. cbn [andb as_write cq_type cq_len].
    change (T_WRITE =? T_WRITE) with true. cbn [andb]. destruct (N.eqb_spec (cq_len r1) 3) as [E|_]; [rewrite E; discriminate | apply N.le_refl]. }
  split.
  - rewrite R4, T2, KN. unfold there. cbn [learn k_line]. rewrite EAD, !N.eqb_refl. reflexivity.
  - specialize (R5 T2). specialize (R6 T2). rewrite SZ in R6. apply bytes_eq; [exact R6|]. intros j J.
    rewrite KN in R5. cbn [learn k_byte] in R5.
    assert (IN : (cq_addr r1 <=? cq_addr r1 + j) && (cq_addr r1 + j <? cq_addr r1 + req_bytes p r2) = true).
    { apply andb_true_intro. split; [apply N.leb_le | apply N.ltb_lt]; lia. }
    assert (IN1 : (cq_addr r1 <=? cq_addr r1 + j) && (cq_addr r1 + j <? cq_addr r1 + size p r1) = true).
    { apply andb_true_intro. split; [apply N.leb_le | apply N.ltb_lt]; lia. }
    specialize (R5 (cq_addr r1 + j)). unfold byte_of in R5. rewrite EAD, SZ, IN, IN1 in R5.
    replace (cq_addr r1 + j - cq_addr r1) with j in R5 by lia. apply (R5 _ eq_refl _ eq_refl).
Qed.

(** *** A checker, for examples *)
Fixpoint typedb (out : list mreq) (tr : trace) : bool :=
  match tr with
  | [] => true
  | io :: tr =>
      (if i_mresp_en (fst io) then match out with q :: _ => mr_type (i_mresp (fst io)) =? mq_type q | [] => false end else true)
      && typedb (outst_next out (fst io) (snd io)) tr
  end.
Lemma typedb_ok : forall t2 t1, answers_typed t1 -> typedb (outstanding t1) t2 = true -> answers_typed (t1 ++ t2).
Proof.
  induction t2 as [|[i o] t2 IH]; intros t1 A H; [rewrite app_nil_r; auto|].
  cbn [typedb fst snd] in H. apply andb_prop in H. destruct H as [H1 H2].
  assert (X : i_mresp_en i = true -> exists q l, outstanding t1 = q :: l /\ mr_type (i_mresp i) = mq_type q).
  { intros E. rewrite E in H1. destruct (outstanding t1) as [|q l]; [discriminate|]. apply N.eqb_eq in H1. eauto. }
  change (t1 ++ (i, o) :: t2) with (t1 ++ [(i, o)] ++ t2). rewrite app_assoc. apply IH.
  - apply typed_snoc; auto.
  - rewrite outstanding_next; auto; [apply typed_le; auto|]. intros E. destruct (X E) as (q & l & -> & _). discriminate.
Qed.
Lemma typedb_run : forall tr, typedb [] tr = true -> answers_typed tr.
Proof.
  intros tr H. apply (typedb_ok tr []); auto. intros [|? t1] io t2 E; discriminate E.
Qed.
End I3.
