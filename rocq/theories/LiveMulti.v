(** MulticoreModel gets every test to the end. *)
From Coq Require Import Arith NArith List Bool Lia Sorted.
From Verif Require Import Bits Params ParamsProofs Msg Units2 Rtl Mem Spec System SysFacts Progress Hide Proto MultiSys MultiProofs MultiFacts DynSpec DynFacts Multicore
  BulkSpec BulkProofs BulkMore LiveSpec Live.
Import ListNotations.
Open Scope N_scope.

Section D.
Variable p : params.
Variable sz : nat -> N * N.
Variable n : nat.
Hypothesis W : wf_caches p sz n.
Notation pp := (sized p sz).
Variables (s0 : nat -> st) (m0 : mem) (M : list msg) (ts : list cyc) (gs : list (nat -> bool)).
Variables (m : mem) (rq : nat -> list mreq) (rs : nat -> list mresp).
Hypothesis CL : clients p sz n s0 ts.
Hypothesis MM : mmem p n m0 no_reqs no_resps ts m rq rs.
Hypothesis DR : driven n M ts gs.
Hypothesis OK : txs_ok n (map fst M).
Hypothesis SO : forall i, (i < n)%nat -> StronglySorted N.le (map m_ord (of_cache i M)).

Notation tx := (map fst M).
Notation sg T := (mc_sigs n (firstn T ts) (firstn T gs)).
Notation ms T := (mst n M ts gs T).
Notation ac i T := (acc ts i T).
Notation re i T := (rsp ts i T).

Lemma prefix_run : forall T, clients p sz n s0 (firstn T ts) /\ exists m rq rs, mmem p n m0 no_reqs no_resps (firstn T ts) m rq rs.
Proof.
  intros T. assert (E : ts = firstn T ts ++ skipn T ts) by (rewrite firstn_skipn; auto).
  destruct (mmem_split p n _ _ _ _ _ _ _ MM _ _ E) as (m1 & rq1 & rs1 & M1 & _).
  split; [apply (clients_app p sz n s0 _ (skipn T ts)); rewrite <- E; auto | eauto].
Qed.
Lemma cok : forall T, (T <= length ts)%nat -> caches_ok n tx (sg T).
Proof.
  intros T LT a y b EA k. destruct (sigs_prefix n M ts gs DR _ _ _ _ LT EA) as (LA & EQ & ta & ga & Eta & Ega & ->). split.
  - cbn [mc_sig mi_resp]. intros H. apply andb_prop in H. destruct H as [H _]. apply Nat.ltb_lt. auto.
  - assert (EQ2 : a ++ [mc_sig n ta ga] = sg (S (length a))).
    { rewrite (firstn_S2 _ _ _ _ Eta), (firstn_S2 _ _ _ _ Ega), sigs_snoc by (destruct DR as [LG _]; rewrite !firstn_length; lia). congruence. }
    rewrite EQ2. destruct (Nat.lt_ge_cases k n) as [K|K]; [|rewrite answers_none; auto; lia].
    rewrite (answers_rsp n M ts gs DR) by (auto; lia). fold (ms (S (length a))). destruct (sent_acc n M ts gs DR (S (length a)) k ltac:(lia) K) as [-> _].
    apply (rsp_acc p sz n W s0 m0 ts m rq rs CL MM); auto.
Qed.
Lemma inv : forall T, (T <= length ts)%nat -> minv n tx (ms T) (sg T).
Proof. intros T L. apply (minv_run n tx OK). apply cok. auto. Qed.

Definition done (T : nat) : Prop := forall i, (i < n)%nat -> (length (of_cache i M) <= re i T)%nat.
Definition doneb (T : nat) : bool := forallb (fun i => Nat.leb (length (of_cache i M)) (re i T)) (seq 0 n).
Lemma doneb_ok : forall T, doneb T = true <-> done T.
Proof.
  intros T. unfold doneb. rewrite forallb_forall. split; intros H i I.
  - apply Nat.leb_le. apply H. apply in_seq. lia.
  - apply Nat.leb_le. apply H. apply in_seq in I. lia.
Qed.
Lemma not_done : forall T, ~ done T -> exists i, (i < n)%nat /\ (re i T < length (of_cache i M))%nat.
Proof.
  intros T ND. destruct (forallb (fun i => Nat.leb (length (of_cache i M)) (re i T)) (seq 0 n)) eqn:E.
  - exfalso. apply ND. apply doneb_ok. auto.
  - assert (H : existsb (fun i => negb (Nat.leb (length (of_cache i M)) (re i T))) (seq 0 n) = true).
    { clear - E. induction (seq 0 n) as [|x l IH]; cbn in *; [discriminate E|]. destruct (Nat.leb _ _); cbn in *; auto. }
    apply existsb_exists in H. destruct H as (i & I & H). apply in_seq in I. apply negb_true_iff, Nat.leb_gt in H. exists i. split; [lia|auto].
Qed.
Lemma ord_at : forall i j o, nth_error (src_of tx i) j = Some o -> In o (map m_ord M).
Proof.
  intros i j o H. rewrite src_of_map in H. apply nth_error_In in H. apply in_map_iff in H. destruct H as (x & <- & X).
  apply of_cache_in in X. apply in_map. apply X.
Qed.
Definition maxo : N := fold_right N.max 0 (map m_ord M).
Lemma below_done : forall T, (T <= length ts)%nat -> all_below tx (2 ^ 32) (sg T) -> done T.
Proof.
  intros T L AB i I. destruct (Nat.le_gt_cases (length (of_cache i M)) (re i T)) as [|G]; auto. exfalso.
  destruct (nth_error (src_of tx i) (re i T)) as [o|] eqn:E; [|apply nth_error_None in E; rewrite src_of_map, map_length in E; lia].
  pose proof (src_range n tx OK _ _ _ E) as [_ O32]. specialize (AB i _ o E O32). rewrite (answers_rsp n M ts gs DR) in AB by auto. lia.
Qed.
Lemma cur_facts : forall T, (T <= length ts)%nat -> ~ done T -> mc_curr (ms T) <= maxo /\ mc_curr (ms T) < 2 ^ 32 /\
  all_below tx (mc_curr (ms T)) (sg T) /\
  (N.to_nat (mc_infl (ms T)) + answered n tx (mc_curr (ms T)) (sg T) = total n tx (mc_curr (ms T)))%nat.
Proof.
  intros T L ND. destruct (not_done T ND) as (i & I & LT).
  destruct (nth_error (src_of tx i) (re i T)) as [o|] eqn:E; [|apply nth_error_None in E; rewrite src_of_map, map_length in E; lia].
  pose proof (max_ge _ _ (ord_at _ _ _ E)) as MX. fold maxo in MX.
  destruct (inv T L) as [_ [(C & SE & AB & FL) | AB]].
  2:{ exfalso. apply ND. apply below_done; auto. }
  assert (OC : mc_curr (ms T) <= o).
  { destruct (N.le_gt_cases (mc_curr (ms T)) o) as [|G]; auto. specialize (AB i _ o E G). rewrite (answers_rsp n M ts gs DR) in AB by auto. lia. }
  repeat split; auto; lia.
Qed.
Lemma no_wrap : forall T, (T <= length ts)%nat -> ~ done T -> mc_infl (ms T) = 0 -> mc_curr (ms T) + 1 < 2 ^ 32.
Proof.
  intros T L ND Z. destruct (cur_facts T L ND) as (_ & C & AB & FL).
  destruct (N.lt_ge_cases (mc_curr (ms T) + 1) (2 ^ 32)) as [|G]; auto. exfalso. apply ND. apply below_done; auto.
  assert (EQ : 2 ^ 32 = mc_curr (ms T) + 1) by lia. rewrite EQ. clear G C EQ.
  intros i' j o' H LO. destruct (N.eq_dec o' (mc_curr (ms T))) as [->|NE']; [|apply (AB i' j o' H); lia].
  destruct (src_range n tx OK _ _ _ H) as [IN _].
  apply (cnt_full (mc_curr (ms T)) (src_of tx i')); auto.
  apply list_sum_eq with (l := seq 0 n) (f := fun i => cnt (mc_curr (ms T)) (firstn (answers i (sg T)) (src_of tx i))) (g := fun i => cnt (mc_curr (ms T)) (src_of tx i)).
  - intros. apply cnt_prefix.
  - change (answered n tx (mc_curr (ms T)) (sg T) = total n tx (mc_curr (ms T))). rewrite Z in FL. cbn in FL. auto.
  - apply in_seq. lia.
Qed.
(** Nothing below or at [curr] is left: the counter of the order is zero. *)
Lemma none_left : forall T, (T <= length ts)%nat -> ~ done T ->
  (forall i, (i < n)%nat -> forall j o, nth_error (src_of tx i) j = Some o -> (re i T <= j)%nat -> mc_curr (ms T) < o) -> mc_infl (ms T) = 0.
Proof.
  intros T L ND H. destruct (cur_facts T L ND) as (_ & _ & _ & FL).
  assert (EQ : answered n tx (mc_curr (ms T)) (sg T) = total n tx (mc_curr (ms T))); [|lia].
  unfold answered, total, sum. f_equal. apply map_ext_in. intros i' I'. apply in_seq in I'. rewrite (answers_rsp n M ts gs DR) by (auto; lia).
  set (a := re i' T) in *. specialize (H i' ltac:(lia)). clear FL I'.
  pose proof (firstn_skipn a (src_of tx i')) as FS. unfold cnt. rewrite <- FS at 2. rewrite count_occ_app.
  assert (NI : count_occ N.eq_dec (skipn a (src_of tx i')) (mc_curr (ms T)) = 0%nat); [|lia].
  apply count_occ_not_In. intros X. apply In_nth_error in X. destruct X as (j & X).
  assert (Y : nth_error (src_of tx i') (a + j) = Some (mc_curr (ms T))).
  { assert (AL : (a <= length (src_of tx i'))%nat).
    { destruct (Nat.le_gt_cases a (length (src_of tx i'))); auto. rewrite skipn_all2 in X by lia. destruct j; discriminate X. }
    rewrite <- FS. rewrite nth_error_app2; rewrite firstn_length; [|lia].
    replace (a + j - Nat.min a (length (src_of tx i')))%nat with j by lia. auto. }
  fold a in H. specialize (H _ _ Y ltac:(lia)). lia.
Qed.

(** *** Events *)
Lemma accS : forall i T t, nth_error ts T = Some t -> ac i (S T) = (ac i T + (if i_req_en (fst (t i)) then 1 else 0))%nat.
Proof.
  intros i T t E. unfold acc. rewrite (firstn_S2 _ _ _ _ E), proj_app, accepted_app, app_length. cbn [proj map]. rewrite acc1.
  destruct (i_req_en (fst (t i))); auto.
Qed.
Lemma reS : forall i T t, nth_error ts T = Some t -> re i (S T) = (re i T + (match o_resp (snd (t i)) with Some _ => 1 | None => 0 end))%nat.
Proof.
  intros i T t E. unfold rsp. rewrite (firstn_S2 _ _ _ _ E), proj_app, responses_app, app_length. cbn [proj map]. rewrite resp1.
  destruct (o_resp (snd (t i))); auto.
Qed.
Lemma done_mono : forall T t, nth_error ts T = Some t -> done T -> done (S T).
Proof. intros T t E D i I. specialize (D i I). rewrite (reS i T t E). lia. Qed.
Lemma curr_mono : forall T t, nth_error ts T = Some t -> ~ done T -> mc_curr (ms T) <= mc_curr (ms (S T)).
Proof.
  intros T t E ND. assert (LT : (T < length ts)%nat) by (apply nth_error_Some; congruence).
  destruct (gs_at n M ts gs DR _ _ E) as (g & EG). rewrite (mst_S n M ts gs DR T t g E EG). cbn [mc_step mc_curr]. unfold ud_step.
  cbn [ui_reset ui_ld ui_up ui_dw ui_upa ui_lda andb]. destruct (cur_facts T ltac:(lia) ND) as (_ & C32 & _).
  destruct (N.eqb_spec (mc_infl (ms T)) 0) as [Z|Z]; cbn [negb andb]; [|lia].
  pose proof (no_wrap T ltac:(lia) ND Z) as NW. rewrite trunc_mod, N.mod_small by lia. lia.
Qed.
Lemma of_cache_total : forall k L, (list_sum (map (fun i => length (of_cache i L)) (seq 0 k)) <= length L)%nat.
Proof.
  intros k L. induction L as [|x L IH].
  - unfold of_cache. cbn [filter length]. generalize (seq 0 k). induction l; cbn; auto.
  - unfold of_cache in *. cbn [filter length].
    assert (X : (list_sum (map (fun i => length (if Nat.eqb (m_cache x) i then x :: filter (fun y => Nat.eqb (m_cache y) i) L else filter (fun y => Nat.eqb (m_cache y) i) L)) (seq 0 k))
       <= list_sum (map (fun i => length (filter (fun y => Nat.eqb (m_cache y) i) L)) (seq 0 k)) + 1)%nat); [|lia].
    clear IH. assert (ND : NoDup (seq 0 k)) by apply seq_NoDup. revert ND. generalize (seq 0 k). induction l as [|i l IHl]; intros ND; [cbn; lia|].
    inversion ND as [|? ? NI ND']; subst. cbn [map list_sum fold_right]. unfold list_sum in *.
    destruct (Nat.eqb_spec (m_cache x) i) as [E|NE].
    + assert (EQ : map (fun i => length (if Nat.eqb (m_cache x) i then x :: filter (fun y => Nat.eqb (m_cache y) i) L else filter (fun y => Nat.eqb (m_cache y) i) L)) l
        = map (fun i => length (filter (fun y => Nat.eqb (m_cache y) i) L)) l).
      { apply map_ext_in. intros a A. destruct (Nat.eqb_spec (m_cache x) a) as [E2|]; auto. exfalso. apply NI. congruence. }
      rewrite EQ. cbn [length]. lia.
    + specialize (IHl ND'). lia.
Qed.
Lemma past : forall T, nth_error ts T = None -> firstn (S T) ts = firstn T ts.
Proof. intros T E. apply nth_error_None in E. rewrite !firstn_all2 by lia. auto. Qed.
Lemma ac_mono : forall i T k, (ac i T <= ac i (T + k))%nat.
Proof.
  intros i T k. induction k as [|k IH]; [rewrite Nat.add_0_r; auto|]. rewrite Nat.add_succ_r. destruct (nth_error ts (T + k)) as [t|] eqn:E.
  - rewrite (accS i _ t E). lia.
  - unfold acc at 2. rewrite (past _ E). auto.
Qed.
Lemma re_mono : forall i T k, (re i T <= re i (T + k))%nat.
Proof.
  intros i T k. induction k as [|k IH]; [rewrite Nat.add_0_r; auto|]. rewrite Nat.add_succ_r. destruct (nth_error ts (T + k)) as [t|] eqn:E.
  - rewrite (reS i _ t E). lia.
  - unfold rsp at 2. rewrite (past _ E). auto.
Qed.
Lemma done_later : forall T k, done T -> done (T + k).
Proof. intros T k D i I. specialize (D i I). pose proof (re_mono i T k). lia. Qed.
Lemma curr_later : forall T k, (T + k <= length ts)%nat -> ~ done (T + k) -> mc_curr (ms T) <= mc_curr (ms (T + k)).
Proof.
  intros T k. induction k as [|k IH]; intros L ND; [rewrite Nat.add_0_r; lia|]. rewrite Nat.add_succ_r in *.
  destruct (nth_error ts (T + k)) as [t|] eqn:E; [|apply nth_error_None in E; lia].
  assert (ND0 : ~ done (T + k)) by (intros D; apply ND; apply (done_mono _ t E D)).
  specialize (IH ltac:(lia) ND0). pose proof (curr_mono _ t E ND0). lia.
Qed.
Definition ev (T : nat) : nat := (list_sum (map (fun i => ac i T + re i T)%nat (seq 0 n)) + N.to_nat (mc_curr (ms T)))%nat.
Lemma ev_bound : forall T, (T <= length ts)%nat -> ~ done T -> (ev T <= 2 * length M + N.to_nat maxo)%nat.
Proof.
  intros T L ND. destruct (cur_facts T L ND) as (CM & _). unfold ev.
  assert (X : (list_sum (map (fun i => ac i T + re i T)%nat (seq 0 n)) <= list_sum (map (fun i => length (of_cache i M) + length (of_cache i M))%nat (seq 0 n)))%nat).
  { apply list_sum_le. intros i I. apply in_seq in I. pose proof (rsp_acc p sz n W s0 m0 ts m rq rs CL MM i T ltac:(lia)) as RA.
    destruct (sent_acc n M ts gs DR T i L ltac:(lia)) as [SA _]. destruct (inv T L) as [SL _]. specialize (SL i). rewrite SA, src_of_map, map_length in SL. lia. }
  rewrite (list_sum_add (seq 0 n) (fun i => length (of_cache i M) + length (of_cache i M))%nat (fun i => length (of_cache i M)) (fun i => length (of_cache i M))) in X by auto.
  pose proof (of_cache_total n M). lia.
Qed.

(** *** In every round something happens *)
Lemma tgs_split : forall l0 l1, combine ts gs = l0 ++ l1 -> ts = map fst l0 ++ map fst l1 /\ gs = map snd l0 ++ map snd l1.
Proof.
  intros l0 l1 E. destruct DR as [LG _]. rewrite <- !map_app, <- E. clear - LG. revert gs LG. induction ts as [|t l IH]; intros [|g l'] LG; try discriminate LG; auto.
  cbn [combine map fst snd]. injection LG as LG. destruct (IH _ LG) as [E1 E2]. rewrite <- E1, <- E2. auto.
Qed.
Lemma cut_first : forall A (l1 l2 : list A), firstn (length l1) (l1 ++ l2) = l1.
Proof. intros. rewrite firstn_app, Nat.sub_diag, firstn_all. cbn [firstn]. apply app_nil_r. Qed.
Lemma window : forall l0 seg rest, combine ts gs = l0 ++ seg ++ rest -> let T0 := length l0 in let k := length seg in
  round p sz n (map fst l0) seg -> ~ done (T0 + k) ->
  (forall i, (i < n)%nat -> ac i (T0 + k) = ac i T0 /\ re i (T0 + k) = re i T0) -> mc_curr (ms (T0 + k)) = mc_curr (ms T0) -> False.
Proof.
  intros l0 seg rest EC T0 k RO ND SAME CU.
  destruct (tgs_split _ _ EC) as [ETS _]. rewrite map_app in ETS.
  assert (LK : (T0 + k <= length ts)%nat) by (rewrite ETS, !app_length, !map_length; unfold T0, k; lia).
  assert (F0 : firstn T0 ts = map fst l0) by (rewrite ETS; unfold T0; rewrite <- (map_length fst l0); apply cut_first).
  assert (ND0 : ~ done T0) by (intros D; apply ND; apply done_later; auto).
  (* everything accepted is answered *)
  assert (ANS : forall i, (i < n)%nat -> re i T0 = ac i T0).
  { intros i I. destruct (RO i I) as (u & v & ES & PC & _). subst seg. set (T := (T0 + length u)%nat).
    assert (FT : firstn T ts = map fst l0 ++ map fst u).
    { rewrite ETS, map_app, <- app_assoc, app_assoc. replace T with (length (map fst l0 ++ map fst u)) by (rewrite app_length, !map_length; auto). apply cut_first. }
    destruct (prefix_run T) as (CT & m1 & rq1 & rs1 & MT). rewrite FT in CT, MT.
    pose proof (multi_progress p sz n W s0 m0 _ _ m1 rq1 rs1 i CT MT I PC) as PR. rewrite <- FT, <- F0 in PR. change (ac i T0 <= re i T)%nat in PR.
    pose proof (rsp_acc p sz n W s0 m0 ts m rq rs CL MM i T0 I). destruct (SAME i I) as [_ S2].
    pose proof (re_mono i T (length v)). replace (T + length v)%nat with (T0 + k)%nat in * by (unfold T, k; rewrite app_length; lia). lia. }
  assert (NS : forall i, (i < n)%nat -> forall j o, nth_error (src_of tx i) j = Some o -> (re i T0 <= j)%nat -> mc_curr (ms T0) < o).
  { intros i I j o NJ LJ. rewrite (ANS i I) in LJ. destruct (RO i I) as (u & v & ES & PC & WI).
    apply existsb_exists in WI. destruct WI as ([t g] & IV & WI). apply in_split in IV. destruct IV as (v1 & v2 & EV). unfold willing in WI. cbn [fst snd] in WI.
    apply andb_prop in WI. destruct WI as [BR GO]. subst v seg.
    set (T := (T0 + length (u ++ v1))%nat).
    assert (EC2 : combine ts gs = (l0 ++ u ++ v1) ++ (t, g) :: v2 ++ rest) by (rewrite EC, <- !app_assoc; auto).
    destruct (tgs_split _ _ EC2) as [ET2 EG2]. 
    assert (LT : length (l0 ++ u ++ v1) = T) by (rewrite app_length; auto).
    assert (ET : nth_error ts T = Some t) by (rewrite ET2, nth_error_app2; rewrite map_length, LT; [rewrite Nat.sub_diag; auto | lia]).
    assert (EG : nth_error gs T = Some g) by (rewrite EG2, nth_error_app2; rewrite map_length, LT; [rewrite Nat.sub_diag; auto | lia]).
    assert (FT : firstn T ts = map fst l0 ++ map fst (u ++ v1)).
    { rewrite ET2, map_app. rewrite <- LT, <- (map_length fst (l0 ++ u ++ v1)), map_app. apply cut_first. }
    assert (TK : (T + S (length v2) = T0 + k)%nat) by (unfold T, k; rewrite !app_length; cbn [length]; lia).
    assert (A1 : ac i T = ac i T0 /\ ac i (S T) = ac i T0).
    { destruct (SAME i I) as [S1 _]. pose proof (ac_mono i T0 (length (u ++ v1))) as X1. fold T in X1. pose proof (ac_mono i T 1) as X2.
      pose proof (ac_mono i (S T) (length v2)) as X3. replace (S T + length v2)%nat with (T0 + k)%nat in X3 by lia. rewrite Nat.add_1_r in X2. lia. }
    assert (NDT : ~ done T) by (intros D; apply ND; rewrite <- TK; apply done_later; auto).
    assert (CT0 : mc_curr (ms T) = mc_curr (ms T0)).
    { pose proof (curr_later T0 (length (u ++ v1)) ltac:(fold T; lia) NDT) as X1. fold T in X1.
      pose proof (curr_later T (S (length v2)) ltac:(lia) ltac:(rewrite TK; auto)) as X2. rewrite TK in X2. lia. }
    destruct (prefix_run T) as (CT & m1 & rq1 & rs1 & MT).
    assert (RDY : o_req_rdy (snd (t i)) = true).
    { assert (CS : clients p sz n s0 (firstn T ts ++ [t])) by (rewrite <- (firstn_S2 _ _ _ _ ET); apply prefix_run).
      destruct (clients_last p sz n s0 _ _ i CS I) as [TI _]. rewrite TI. cbn [snd].
      pose proof (multi_proto p sz n s0 m0 _ _ _ _ i CT MT I) as PR.
      rewrite FT, proj_app, map_app in PR |- *. rewrite FT in CT. destruct (proj_split p sz n s0 _ _ i CT I) as [E1 E2].
      apply (proto_ready (pp i) (W i I)) with (1 := PR).
      - rewrite E2. assert (LA : length (accepted (proj i (map fst (u ++ v1)))) = 0%nat).
        { assert (X : ac i T = (ac i T0 + length (accepted (proj i (map fst (u ++ v1)))))%nat) by (unfold acc; rewrite FT, F0, proj_app, accepted_app, app_length; auto). lia. }
        destruct (accepted _); [auto | discriminate LA].
      - rewrite E1, E2. rewrite map_app, proj_app, Progress.productive_app. unfold B2. lia.
      - exact BR. }
    destruct (sent_acc n M ts gs DR T i ltac:(lia) I) as [SA _].
    pose proof (dr_at n M ts gs DR T t g i ET EG I) as D. pose proof (accS i T t ET) as AS.
    assert (NE : i_req_en (fst (t i)) = false) by (destruct (i_req_en (fst (t i))); auto; lia).
    assert (NJ2 : nth_error (src_of tx i) (ac i T0) <> None).
    { apply nth_error_Some. assert (j < length (src_of tx i))%nat by (apply nth_error_Some; congruence). lia. }
    destruct (nth_error (src_of tx i) (ac i T0)) as [o1|] eqn:NA; [|congruence].
    assert (O1 : mc_curr (ms T0) < o1).
    { unfold mc_sends in D. rewrite SA, (proj1 A1), NA in D. cbn [mc_sig mi_go mi_rdy] in D. rewrite RDY, GO, CT0 in D. cbn [andb] in D.
      destruct (N.leb_spec o1 (mc_curr (ms T0))) as [LE|]; auto. destruct D as [D _]. congruence. }
    assert (o1 <= o); [|lia]. specialize (SO i I). rewrite <- src_of_map in SO. clear - SO NA NJ LJ.
    revert SO NA NJ LJ. generalize (ac i T0). generalize (src_of tx i). intros l a S. revert a j. induction S as [|x l S IH F]; intros a j NA NJ L; [destruct a; discriminate NA|].
    destruct a as [|a], j as [|j]; cbn [nth_error] in *; try lia.
    - injection NA as ->. injection NJ as ->. lia.
    - injection NA as ->. rewrite Forall_forall in F. apply F. eapply nth_error_In; eauto.
    - apply (IH a j); auto. lia. }
  pose proof (none_left T0 ltac:(lia) ND0 NS) as Z. destruct (cur_facts T0 ltac:(lia) ND0) as (_ & C32 & _).
  assert (KP : (0 < k)%nat).
  { destruct (not_done T0 ND0) as (i & I & _). destruct (RO i I) as (u & v & ES & _ & WI). unfold k. rewrite ES, app_length. destruct v; [discriminate WI | cbn [length]; lia]. }
  destruct (nth_error ts T0) as [t|] eqn:ET; [|apply nth_error_None in ET; lia]. destruct (gs_at n M ts gs DR _ _ ET) as (g & EG).
  assert (C1 : mc_curr (ms (S T0)) <= mc_curr (ms T0)).
  { rewrite <- CU. replace (T0 + k)%nat with (S T0 + (k - 1))%nat by lia. apply curr_later; [lia|]. replace (S T0 + (k - 1))%nat with (T0 + k)%nat by lia. auto. }
  rewrite (mst_S n M ts gs DR T0 t g ET EG) in C1. cbn [mc_step mc_curr] in C1. rewrite Z in C1. unfold ud_step in C1.
  cbn [ui_reset ui_ld ui_up ui_dw ui_upa ui_lda andb negb N.eqb] in C1.
  pose proof (no_wrap T0 ltac:(lia) ND0 Z) as NW. rewrite trunc_mod, N.mod_small in C1 by lia. lia.
Qed.
Lemma rounds_ev : forall k l0 l1, combine ts gs = l0 ++ l1 -> rounds p sz n k (map fst l0) l1 ->
  done (length ts) \/ (ev (length l0) + k <= ev (length ts))%nat.
Proof.
  intros k l0 l1 EC R. remember (map fst l0) as t0 eqn:E0. revert l0 E0 EC. induction R as [t0 rest | k t0 seg rest RO R IH]; intros l0 E0 EC.
  - destruct (doneb (length ts)) eqn:D; [left; apply doneb_ok; auto|right]. assert (ND : ~ done (length ts)) by (intros X; apply doneb_ok in X; congruence).
    destruct (tgs_split _ _ EC) as [ETS _]. assert (LL : length ts = (length l0 + length rest)%nat) by (rewrite ETS, app_length, !map_length; auto).
    unfold ev. pose proof (curr_later (length l0) (length rest) ltac:(lia) ltac:(rewrite <- LL; auto)) as CC. rewrite <- LL in CC.
    assert (SS : (list_sum (map (fun i => ac i (length l0) + re i (length l0))%nat (seq 0 n)) <= list_sum (map (fun i => ac i (length ts) + re i (length ts))%nat (seq 0 n)))%nat).
    { apply list_sum_le. intros i _. rewrite LL. pose proof (ac_mono i (length l0) (length rest)). pose proof (re_mono i (length l0) (length rest)). lia. }
    lia.
  - subst t0. destruct (IH (l0 ++ seg)) as [D|LE]; [rewrite map_app; auto | rewrite <- app_assoc; auto | left; auto|].
    destruct (doneb (length ts)) eqn:D; [left; apply doneb_ok; auto|right]. assert (ND : ~ done (length ts)) by (intros X; apply doneb_ok in X; congruence).
    destruct (tgs_split _ _ EC) as [ETS _]. assert (LL : length ts = (length l0 + length seg + length rest)%nat) by (rewrite ETS, app_length, !map_length, app_length; lia).
    assert (ND1 : ~ done (length l0 + length seg)) by (intros X; apply ND; rewrite LL; apply done_later; auto).
    rewrite app_length in LE.
    pose proof (curr_later (length l0) (length seg) ltac:(lia) ND1) as CC.
    assert (PL : forall i, In i (seq 0 n) -> (ac i (length l0) + re i (length l0) <= ac i (length l0 + length seg) + re i (length l0 + length seg))%nat).
    { intros i _. pose proof (ac_mono i (length l0) (length seg)). pose proof (re_mono i (length l0) (length seg)). lia. }
    pose proof (list_sum_le _ _ _ PL) as SS.
    destruct (Nat.eq_dec (ev (length l0 + length seg)) (ev (length l0))) as [EQ|NE]; [exfalso|unfold ev in *; lia].
    unfold ev in EQ.
    assert (EQ1 : list_sum (map (fun i => ac i (length l0) + re i (length l0))%nat (seq 0 n)) = list_sum (map (fun i => ac i (length l0 + length seg) + re i (length l0 + length seg))%nat (seq 0 n))) by lia.
    assert (EQ2 : mc_curr (ms (length l0 + length seg)) = mc_curr (ms (length l0))) by lia.
    pose proof (list_sum_eq _ _ _ PL EQ1) as EQ3.
    apply (window l0 seg rest EC RO ND1); auto. intros i I. specialize (EQ3 i ltac:(apply in_seq; lia)). cbv beta in EQ3.
    pose proof (ac_mono i (length l0) (length seg)). pose proof (re_mono i (length l0) (length seg)). lia.
Qed.
Theorem multicore_completes : rounds p sz n (2 * length M + N.to_nat maxo + 1) [] (combine ts gs) ->
  forall i, (i < n)%nat -> length (responses (proj i ts)) = length (of_cache i M) /\ accepted (proj i ts) = map m_req (of_cache i M).
Proof.
  intros H.
  assert (D : done (length ts)).
  { apply doneb_ok. destruct (doneb (length ts)) eqn:DB; auto. exfalso.
    assert (ND : ~ done (length ts)) by (intros D; apply doneb_ok in D; congruence).
    destruct (rounds_ev _ [] _ eq_refl H) as [|EV]; [auto|].
    pose proof (ev_bound (length ts) (le_n _) ND). lia. }
  intros i I. specialize (D i I). pose proof (rsp_acc p sz n W s0 m0 ts m rq rs CL MM i (length ts) I) as RA.
  destruct (sent_acc n M ts gs DR (length ts) i (le_n _) I) as [SA EA]. destruct (inv (length ts) (le_n _)) as [SL _]. specialize (SL i).
  rewrite SA, src_of_map, map_length in SL.
  assert (AL : ac i (length ts) = length (of_cache i M)) by lia. rewrite AL, firstn_all in EA. rewrite firstn_all in EA.
  assert (RL : re i (length ts) = length (of_cache i M)) by lia. unfold rsp in RL. rewrite firstn_all in RL. auto.
Qed.
End D.

(** With both sides always ready, memory latency at most [L] and source delays at most [D], a round takes a fixed number of cycles. *)
Lemma latency_rounds0 : forall p z n X L D K (l : list (cyc * (nat -> bool))) ts0, (forall i, (i < n)%nat -> total_lines (sized p z i) <= X) ->
  (forall i, (i < n)%nat -> Forall (fun io => i_resp_rdy (fst io) && i_mreq_rdy (fst io) = true) (proj i (map fst l)) /\
     answers_within L (proj i ts0) (proj i (map fst l)) /\ delay_within D i (map snd l)) ->
  (K * (2 * N.to_nat (5 * X + 3) * (L + 1) + D + 1) <= length l)%nat -> rounds p z n K ts0 l.
Proof.
  intros p z n X L D K l ts0 TL. revert l ts0. induction K as [|K IH]; intros l ts0 H LE; [constructor|].
  set (B := (2 * N.to_nat (5 * X + 3))%nat) in *.
  set (u := firstn (B * (L + 1)) l). set (l' := skipn (B * (L + 1)) l). set (v := firstn (D + 1) l'). set (w := skipn (D + 1) l').
  assert (E : l = (u ++ v) ++ w) by (unfold u, v, w, l'; rewrite <- app_assoc, !firstn_skipn; auto).
  assert (LU : length u = (B * (L + 1))%nat) by (unfold u; apply firstn_length_le; cbn [Nat.mul] in LE; lia).
  assert (LV : length v = (D + 1)%nat) by (unfold v, l'; apply firstn_length_le; rewrite skipn_length; cbn [Nat.mul] in LE; lia).
  clearbody u v w. clear l'. subst l. rewrite !app_length in LE. cbn [Nat.mul] in LE.
  constructor.
  - intros i I. destruct (H i I) as (F & AW & DW). exists u, v. split; auto. rewrite !map_app in *. split.
    + apply (Nat.le_trans _ B); [specialize (TL i I); unfold B; lia|].
      unfold proj in *. unfold cyc in *. rewrite !map_app in F. apply Forall_app in F. destruct F as [F _]. apply Forall_app in F. destruct F as [F _].
      apply (latency_count L); auto.
      * intros t1 t2 t3 E L2. rewrite !map_app in AW. rewrite E in AW. apply (AW t1 t2 (t3 ++ map (fun t => t i) (map fst v) ++ map (fun t => t i) (map fst w))); auto.
        rewrite <- !app_assoc. auto.
      * rewrite !map_length, LU. replace (S L) with (L + 1)%nat by lia. auto.
    + specialize (DW (map snd u) (map snd v) (map snd w)). rewrite <- app_assoc, map_length in DW. specialize (DW eq_refl ltac:(lia)).
      apply existsb_exists in DW. destruct DW as (g & G & GI). apply in_map_iff in G. destruct G as (x & <- & XI).
      apply existsb_exists. exists x. split; auto. unfold willing. rewrite GI, andb_true_r.
      unfold proj in F. rewrite !map_app in F. apply Forall_app in F. destruct F as [F _]. apply Forall_app in F. destruct F as [_ F].
      rewrite Forall_forall in F. apply (F (fst x i)). apply (in_map (fun t => t i)). apply in_map. auto.
  - apply IH; [|lia]. intros i I. destruct (H i I) as (F & AW & DW). rewrite !map_app in *. unfold proj in *. unfold cyc in *. rewrite !map_app in *. split; [|split].
    + apply Forall_app in F. apply F.
    + intros t1 t2 t3 E L2.
      specialize (AW ((map (fun t => t i) (map fst u) ++ map (fun t => t i) (map fst v)) ++ t1) t2 t3). rewrite E in AW.
      destruct AW as (a & io & b & E2 & XX); [rewrite <- !app_assoc; auto | auto |]. exists a, io, b. split; auto.
      rewrite <- !app_assoc in XX. rewrite <- !app_assoc. auto.
    + intros g1 g2 g3 E LG. apply (DW ((map snd u ++ map snd v) ++ g1) g2 g3); auto. rewrite E, <- !app_assoc. auto.
Qed.
Theorem latency_rounds : forall p z n X L D K ts gs, length gs = length ts -> (forall i, (i < n)%nat -> total_lines (sized p z i) <= X) ->
  (forall i, (i < n)%nat -> Forall (fun io => i_resp_rdy (fst io) && i_mreq_rdy (fst io) = true) (proj i ts) /\
     answers_within L [] (proj i ts) /\ delay_within D i gs) ->
  (K * (2 * N.to_nat (5 * X + 3) * (L + 1) + D + 1) <= length ts)%nat -> rounds p z n K [] (combine ts gs).
Proof.
  intros p z n X L D K ts gs LG TL H LE.
  assert (CF : forall A C (a : list A) (b : list C), length b = length a -> map fst (combine a b) = a /\ map snd (combine a b) = b).
  { intros A C a. induction a as [|x a IHa]; intros [|y b] E; try discriminate E; auto. cbn. injection E as E. destruct (IHa b E). split; f_equal; auto. }
  destruct (CF _ _ ts gs LG) as [C1 C2]. apply (latency_rounds0 p z n X L D); rewrite ?C1, ?C2; auto. rewrite combine_length, LG, Nat.min_id. auto.
Qed.

(** A message that comes after one of larger order for the same cache is never sent, nor anything after it. *)
Lemma accepted_split : forall i ts j, (j < length (accepted (proj i ts)))%nat ->
  exists ts1 t ts2, ts = ts1 ++ t :: ts2 /\ i_req_en (fst (t i)) = true /\ length (accepted (proj i ts1)) = j.
Proof.
  intros i ts. induction ts as [|t ts IH] using rev_ind; intros j L; [cbn in L; lia|].
  rewrite proj_app, accepted_app, app_length in L. cbn [proj map] in L. rewrite acc_one in L.
  destruct (Nat.lt_ge_cases j (length (accepted (proj i ts)))) as [LT|GE].
  - destruct (IH j LT) as (a & x & b & -> & EN & LA). exists a, x, (b ++ [t]). rewrite <- app_assoc. auto.
  - destruct (i_req_en (fst (t i))) eqn:EN; cbn [length] in L; [|lia]. exists ts, t, []. repeat split; auto. lia.
Qed.
Theorem unsorted_stuck : forall p z n s0 m0 M ts gs m rq rs, wf_caches p z n -> clients p z n s0 ts -> mmem p n m0 no_reqs no_resps ts m rq rs ->
  driven n M ts gs -> txs_ok n (map fst M) ->
  forall i j j' x x', (i < n)%nat -> nth_error (of_cache i M) j = Some x -> nth_error (of_cache i M) j' = Some x' -> (j < j')%nat -> m_ord x' < m_ord x ->
  (length (accepted (proj i ts)) <= j)%nat.
Proof.
  intros p z n s0 m0 M ts gs m rq rs W CL MM DR OK i j j' x x' I N1 N2 LT OO.
  destruct (Nat.le_gt_cases (length (accepted (proj i ts))) j) as [|G]; auto. exfalso.
  destruct (accepted_split i ts j G) as (ts1 & t & ts2 & E & EN & LA).
  pose proof (driven_released p z n W s0 m0 M ts gs m rq rs CL MM DR OK) as [_ RO].
  rewrite <- LA in N1. pose proof (RO ts1 t ts2 i x E I EN N1 i j' x' I N2 OO) as R.
  pose proof (rsp_acc p z n W s0 m0 ts m rq rs CL MM i (length ts1) I) as RA. unfold acc, rsp in RA. rewrite E, firstn_app, firstn_all, Nat.sub_diag, firstn_O, app_nil_r in RA. lia.
Qed.

Lemma sendable_sorted : forall n M i, sendable n M -> (i < n)%nat -> StronglySorted N.le (map m_ord (of_cache i M)).
Proof.
  intros n M i S I. specialize (S i I). induction (of_cache i M) as [|x l IH]; cbn [map]; [constructor|]. constructor.
  - apply IH. intros l1 y l2 z l3 E. apply (S (x :: l1) y l2 z l3). rewrite E. auto.
  - rewrite Forall_forall. intros o O. apply in_map_iff in O. destruct O as (y & <- & Y). apply in_split in Y. destruct Y as (l2 & l3 & E).
    apply (S [] x l2 y l3). rewrite E. auto.
Qed.
Lemma test_sendable : forall p n M, test_ok p n M -> sendable n M.
Proof.
  intros p n M [_ SO] i _ l1 x l2 y l3 E.
  assert (SF : StronglySorted (fun x y => m_ord x <= m_ord y) (of_cache i M)).
  { clear E. unfold of_cache. induction SO as [|a M SO IH F]; cbn [filter]; [constructor|]. destruct (Nat.eqb _ _); auto. constructor; auto.
    rewrite Forall_forall in *. intros b B. apply filter_In in B. apply F. apply B. }
  rewrite E in SF. clear E. induction l1 as [|a l1 IH]; cbn [app] in SF; inversion SF as [|? ? S1 F1]; subst; auto.
  rewrite Forall_forall in F1. apply F1. apply in_or_app. right. left. auto.
Qed.
Theorem model_completes : forall p z n s0 m0 M ts gs m rq rs i, wf_caches p z n -> clients p z n s0 ts -> mmem p n m0 no_reqs no_resps ts m rq rs ->
  driven n M ts gs -> txs_ok n (map fst M) -> sendable n M -> rounds p z n (rounds_for M) [] (combine ts gs) -> (i < n)%nat ->
  length (responses (proj i ts)) = length (of_cache i M) /\ accepted (proj i ts) = map m_req (of_cache i M).
Proof.
  intros p z n s0 m0 M ts gs m rq rs i W CL MM DR OK SE RO I.
  exact (multicore_completes p z n W s0 m0 M ts gs m rq rs CL MM DR OK (fun i I => sendable_sorted n M i SE I) RO i I).
Qed.
Theorem model_completes_latency : forall p z n X L D s0 m0 M ts gs m rq rs i, wf_caches p z n -> clients p z n s0 ts -> mmem p n m0 no_reqs no_resps ts m rq rs ->
  driven n M ts gs -> txs_ok n (map fst M) -> sendable n M -> (forall i, (i < n)%nat -> total_lines (sized p z i) <= X) ->
  (forall i, (i < n)%nat -> Forall (fun io => i_resp_rdy (fst io) && i_mreq_rdy (fst io) = true) (proj i ts) /\ answers_within L [] (proj i ts) /\ delay_within D i gs) ->
  (rounds_for M * (2 * N.to_nat (5 * X + 3) * (L + 1) + D + 1) <= length ts)%nat -> (i < n)%nat ->
  length (responses (proj i ts)) = length (of_cache i M) /\ accepted (proj i ts) = map m_req (of_cache i M).
Proof.
  intros p z n X L D s0 m0 M ts gs m rq rs i W CL MM DR OK SE TL H LE I. eapply model_completes; eauto. eapply latency_rounds; eauto. destruct DR; auto.
Qed.
Lemma for_cache_length : forall i M (Y : list cresp), length Y = length M -> length (for_cache i M Y) = length (of_cache i M).
Proof.
  intros i M. unfold for_cache, of_cache. induction M as [|x M IH]; intros [|y Y] E; try discriminate E; auto. cbn [combine filter fst].
  injection E as E. specialize (IH Y E). rewrite map_length in *. destruct (Nat.eqb _ _); cbn [length]; lia.
Qed.
(** Race-free tests: all the responses, and the right ones. *)
Theorem tests_finish : forall p z n s0 m0 M ts gs m rq rs i, wf_caches p z n -> test_ok p n M -> txs_ok n (map fst M) ->
  (forall k, k * 4 < 2 ^ p_abw p -> race_free p z n k M) ->
  clients p z n s0 ts -> mmem p n m0 no_reqs no_resps ts m rq rs -> driven n M ts gs -> rounds p z n (rounds_for M) [] (combine ts gs) -> (i < n)%nat ->
  responses (proj i ts) = for_cache i M (expected p z m0 [] M).
Proof.
  intros p z n s0 m0 M ts gs m rq rs i W OK TX RF CL MM DR RO I.
  destruct (bulk_expected p z n W s0 m0 M ts m rq rs i OK RF CL MM (driven_released p z n W s0 m0 M ts gs m rq rs CL MM DR TX) I) as (rest & E).
  destruct (model_completes p z n s0 m0 M ts gs m rq rs i W CL MM DR TX (test_sendable p n M OK) RO I) as [L _].
  assert (EL : forall l seen, length (expected p z m0 seen l) = length l) by (induction l as [|x l IH]; intros seen; cbn [expected length]; auto).
  pose proof (f_equal (@length _) E) as LE. rewrite app_length, for_cache_length, L in LE by apply EL.
  destruct rest; [rewrite E, app_nil_r; auto | cbn [length] in LE; lia].
Qed.
Lemma all_productive : forall tr tr0, productive_cycles tr0 tr = length tr ->
  Forall (fun io => i_resp_rdy (fst io) && i_mreq_rdy (fst io) = true) tr /\ answers_within 0 tr0 tr.
Proof.
  assert (H : forall tr tr0, productive_cycles tr0 tr = length tr -> forall t1 io t2, tr = t1 ++ io :: t2 -> productive (tr0 ++ t1) (fst io) = true).
  { induction tr as [|x tr IH]; intros tr0 H t1 io t2 E; [destruct t1; discriminate E|]. cbn [productive_cycles length] in H.
    pose proof (productive_le tr (tr0 ++ [x])) as PL. destruct (productive tr0 (fst x)) eqn:PX; [|lia].
    destruct t1 as [|y t1]; cbn [app] in E; injection E as <- E; [rewrite app_nil_r; auto|]. rewrite (IH (tr0 ++ [x]) ltac:(lia) t1 io t2 E) || idtac.
    specialize (IH (tr0 ++ [x]) ltac:(lia) t1 io t2 E). rewrite <- app_assoc in IH. auto. }
  intros tr tr0 E. specialize (H tr tr0 E). split.
  - rewrite Forall_forall. intros io IN. apply in_split in IN. destruct IN as (t1 & t2 & ->). specialize (H t1 io t2 eq_refl). unfold productive in H. apply andb_prop in H. apply H.
  - intros t1 [|io [|? ?]] t3 EQ L; try discriminate L. exists [], io, []. split; auto. cbn [app] in EQ. specialize (H t1 io t3 EQ). unfold productive in H.
    apply andb_prop in H. destruct H as [_ H]. rewrite app_nil_r. destruct (outstanding (tr0 ++ t1)); auto.
Qed.
