(** C74: caches and a device over one memory: the invariant of every run (as in DynFacts.v). *)
From Coq Require Import Arith NArith List Bool Lia.
From Verif Require Import Bits Params Msg Units Rtl Mem Spec System Tl ParamsProofs RefineInv RefineProofs
  UnitProofs ViewDefs ViewOps ViewProofs SysProofs SysFacts Traffic MetaProofs PendProofs TrafProofs
  Hide MultiSys MultiProofs MultiFacts DynSpec DynProofs DynFacts DmaSpec.
Import ListNotations.
Open Scope N_scope.

Section G.
Variable p : params.
Variable sz : nat -> N * N.
Variable n : nat.
Hypothesis W : wf_caches p sz n.
Notation pp := (sized p sz).
Variable K : N.
Hypothesis HK : K * 4 < 2 ^ p_abw p.
Variable s0 : nat -> st.
Variable m0 : mem.
Variables may own : nat -> nat -> bool.
Notation agK := (agree p (mk K true)).

Lemma cycles_app : forall h h', cycles (h ++ h') = cycles h ++ cycles h'.
Proof. intros. apply flat_map_app. Qed.
Lemma cycles_c : forall h t, cycles (h ++ [HC t]) = cycles h ++ [t].
Proof. intros. rewrite cycles_app. auto. Qed.
Lemma cycles_d : forall h d, cycles (h ++ [HD d]) = cycles h.
Proof. intros. rewrite cycles_app. cbn. apply app_nil_r. Qed.

Notation V h := (shared p n m0 h).
Lemma V_snoc : forall h t, V (h ++ [HC t]) = flat_mem p (V h) (cyc_reqs n t).
Proof. intros. unfold shared. rewrite fold_left_app. auto. Qed.
Lemma V_read : forall h a x, V (h ++ [HD (DRead a x)]) = V h.
Proof. intros. unfold shared. rewrite fold_left_app. auto. Qed.
Lemma V_write : forall h a v, V (h ++ [HD (DWrite a v)]) = set_byte (V h) a v.
Proof. intros. unfold shared. rewrite fold_left_app. auto. Qed.
Fixpoint seen_from (pre : list hev) (i : nat) (h : list hev) : list mem :=
  match h with
  | [] => []
  | e :: h => (match e with HC t => if i_req_en (fst (t i)) then [V pre] else [] | HD _ => [] end) ++ seen_from (pre ++ [e]) i h
  end.
Definition seen := seen_from [].
Lemma seen_from_app : forall i h h' pre, seen_from pre i (h ++ h') = seen_from pre i h ++ seen_from (pre ++ h) i h'.
Proof.
  induction h as [|t h IH]; intros h' pre; cbn [app seen_from].
  - rewrite app_nil_r. auto.
  - rewrite IH, <- !app_assoc. auto.
Qed.
Lemma seen_snoc : forall i h t, seen i (h ++ [HC t]) = seen i h ++ (if i_req_en (fst (t i)) then [V h] else []).
Proof. intros. unfold seen. rewrite seen_from_app. cbn [seen_from app]. rewrite app_nil_r. auto. Qed.
Lemma seen_d : forall i h d, seen i (h ++ [HD d]) = seen i h.
Proof. intros. unfold seen. rewrite seen_from_app. cbn [seen_from app]. rewrite app_nil_r. auto. Qed.
Lemma seen_from_len : forall i h pre, length (seen_from pre i h) = length (accepted (proj i (cycles h))).
Proof.
  induction h as [|[t|d] h IH]; intros pre; auto; cbn [seen_from]; rewrite app_length, IH; auto.
  change (cycles (HC t :: h)) with (t :: cycles h). cbn [proj map]. fold (proj i (cycles h)). change (t i :: proj i (cycles h)) with ([t i] ++ proj i (cycles h)). rewrite accepted_app, app_length, acc1. destruct (i_req_en (fst (t i))); auto.
Qed.

Lemma clients_legal : forall h m rq rs, dmem p n m0 h m rq rs -> clients p sz n s0 (cycles h) ->
  forall i, (i < n)%nat -> legal_run (pp i) (s0 i) [] (map fst (proj i (cycles h))) /\
    exists ms, outs (pp i) (s0 i) [] (map fst (proj i (cycles h))) = ms ++ rq i /\ Forall2 (fun x q => mr_type x = mq_type q) (rs i) ms.
Proof.
  intros h m rq rs H. induction H as [|h m rq rs j q l H IH L E | h m rq rs t H IH D | h m rq rs a H IH | h m rq rs a v H IH]; intros C i I.
  - split; [exact Logic.I|]. exists []. split; [auto | constructor].
  - destruct (IH C i I) as (LG & ms & OU & F). split; auto. unfold setq. destruct (Nat.eqb_spec i j) as [->|NE].
    + exists (ms ++ [q]). rewrite OU, E, <- app_assoc. split; auto. apply Forall2_app; auto. constructor; auto. apply mem_exec_type.
    + exists ms. auto.
  - rewrite cycles_c in *. destruct (IH (clients_app _ _ _ _ _ _ C) i I) as (LG & ms & OU & F).
    destruct (clients_last _ _ _ _ _ _ _ C I) as [TO CL]. rewrite proj_app, map_app. cbn [proj map].
    destruct (t i) as [x o] eqn:TI. cbn [fst snd] in *. inversion TO as [EO]. rewrite <- EO.
    split.
    + apply legal_add; auto. constructor.
      * intros RE. destruct (CL RE) as (X1 & X2). rewrite EO in X1. split; auto. eapply wf_req_type; eauto.
      * intros ME. specialize (D i I). rewrite TI in D. destruct (D ME) as (l & RS). cbn [fst] in RS. rewrite RS in F.
        inversion F as [|? q ? ms' F1 F2]; subst. rewrite OU. exists q, (ms' ++ rq i). auto.
    + rewrite outs_snoc. unfold outst_next. rewrite OU. rewrite <- EO, ol_opt. specialize (D i I). rewrite TI in D. cbn [fst] in D.
      destruct (i_mresp_en x) eqn:ME.
      * destruct (D eq_refl) as (l & RS). rewrite RS in F. inversion F as [|? q ? ms' F1 F2]; subst. rewrite RS. cbn [List.tl app].
        exists ms'. rewrite app_assoc. auto.
      * exists ms. rewrite app_assoc. auto.
  - rewrite cycles_d in *. auto.
  - rewrite cycles_d in *. auto.
Qed.
Lemma clients_ast : forall h m rq rs, dmem p n m0 h m rq rs -> clients p sz n s0 (cycles h) ->
  forall i, (i < n)%nat -> exists c0 a, clean_start (pp i) c0 /\ aruns (pp i) (mkA c0 None []) (proj i (cycles h)) a.
Proof.
  intros h m rq rs H C i I. destruct (clients_legal _ _ _ _ H C i I) as [LG _]. destruct (C i I) as (C1 & C2 & _).
  destruct (refinement (pp i) (W i I) (s0 i) _ C1 LG) as (c0 & a & A1 & A2 & _). exists c0, a. split; auto.
  rewrite C2. auto.
Qed.
Lemma firstn_le_app : forall A (l l' : list A) e, (e <= length l)%nat -> firstn e (l ++ l') = firstn e l.
Proof. exact (DynFacts.firstn_le_app p K HK). Qed.
Lemma acc_at_len : forall i e ts, (length (acc_at i e ts) <= length (accepted (proj i ts)))%nat.
Proof. exact (DynFacts.acc_at_len p K HK). Qed.
Lemma acc_at_all : forall i e ts, length (acc_at i e ts) = length (accepted (proj i ts)) -> acc_at i e ts = accepted (proj i ts).
Proof. exact (DynFacts.acc_at_all p K HK). Qed.
Lemma fin_choice : forall (R : nat -> bool -> Prop) k, (forall i, (i < k)%nat -> exists x, R i x) -> exists f, forall i, (i < k)%nat -> R i (f i).
Proof. exact (DynFacts.fin_choice p K HK). Qed.
(** *** The invariant *)
(** [T]: the cycle whose permissions hold; [hz]: number of cycles whose
    permissions are known to be in force *)
Definition Inv (T hz : nat) (h : list hev) (ts : list cyc) (m : mem) (rq : nat -> list mreq) (rs : nat -> list mresp) (ts' : list cyc) : Prop :=
  exists b : nat -> bool,
  (forall i, (i < n)%nat -> b i = true -> may T i = true) /\
  (forall i, (i < n)%nat -> exists a af nd, aruns (pp i) a (proj i ts') af /\
     J3 (pp i) K (b i) (b i && own T i) (V h) a m (rq i) (rs i) (accepted (proj i ts)) (responses (proj i ts)) (seen i h) nd /\
     (may T i = true -> forall e, since may hz e i -> absent (pp i) K (acc_at i e ts) -> (length (acc_at i e ts) <= nd)%nat -> b i = true)) /\
  ((forall i, (i < n)%nat -> b i && own T i = false) -> agK m (V h)).

Lemma inv_cycle : forall h ts t ts' m rq rs, synced p sz n K may own (ts ++ t :: ts') -> clients p sz n s0 (ts ++ [t]) ->
  (forall i, (i < n)%nat -> i_mresp_en (fst (t i)) = true -> exists l, rs i = i_mresp (fst (t i)) :: l) ->
  Inv (length ts) (S (length ts)) h ts m rq rs (t :: ts') ->
  Inv (length ts) (S (length ts)) (h ++ [HC t]) (ts ++ [t]) m (fun i => rq i ++ opt_list (o_mreq (snd (t i))))
      (fun i => if i_mresp_en (fst (t i)) then List.tl (rs i) else rs i) ts'.
Proof.
  intros h ts t ts' m rq rs SY C D (b & B1 & B2 & B3).
  set (T := length ts) in *.
  assert (AT : forall i, nth_error (proj i (ts ++ t :: ts')) T = Some (t i)).
  { intros i. rewrite proj_app. cbn [proj map]. rewrite nth_error_app2; unfold T, proj; rewrite map_length; auto. rewrite Nat.sub_diag. auto. }
  assert (TCH : forall i, (i < n)%nat -> i_req_en (fst (t i)) = true -> touches p (i_req (fst (t i))) K ->
     exists e, since may (S T) e i /\ absent (pp i) K (acc_at i e ts)).
  { intros i I RE TT. destruct (sy_touch _ _ _ _ _ _ _ SY i T (t i) I) as (e & E1 & E2 & E3); auto.
    exists e. split; [split; [lia | intros; apply E2; lia]|]. unfold acc_at. rewrite firstn_le_app in E3 by auto. auto. }
  assert (MAY : forall i, (i < n)%nat -> i_req_en (fst (t i)) = true -> touches p (i_req (fst (t i))) K -> may T i = true).
  { intros i I RE TT. destruct (TCH i I RE TT) as (e & [E1 E2] & _). apply E2. lia. }
  assert (OWN : forall i, (i < n)%nat -> i_req_en (fst (t i)) = true -> modifies p (i_req (fst (t i))) K -> own T i = true).
  { intros i I RE TT. eapply (sy_modify _ _ _ _ _ _ _ SY); eauto. }
  assert (WF : forall i, (i < n)%nat -> i_req_en (fst (t i)) = true -> wf_req p (i_req (fst (t i)))).
  { intros i I RE. apply (clients_last _ _ _ _ _ _ _ C I). auto. }
  assert (EA : forall i e, since may (S T) e i -> acc_at i e (ts ++ [t]) = acc_at i e ts).
  { intros i e [E _]. unfold acc_at. rewrite firstn_le_app; auto. unfold T in E. lia. }
  (* one cache *)
  assert (STEP : forall i, (i < n)%nat -> exists b', (b' = true -> may T i = true) /\ (b i = true -> b' = true) /\
     (i_req_en (fst (t i)) = true -> touches p (i_req (fst (t i))) K -> b' = true) /\
     exists a af nd, aruns (pp i) a (proj i ts') af /\
     J3 (pp i) K b' (b' && own T i) (V (h ++ [HC t])) a m (rq i ++ opt_list (o_mreq (snd (t i)))) (if i_mresp_en (fst (t i)) then List.tl (rs i) else rs i)
       (accepted (proj i (ts ++ [t]))) (responses (proj i (ts ++ [t]))) (seen i (h ++ [HC t])) nd /\
     (may T i = true -> forall e, since may (S T) e i -> absent (pp i) K (acc_at i e (ts ++ [t])) -> (length (acc_at i e (ts ++ [t])) <= nd)%nat -> b' = true)).
  { intros i I. destruct (B2 i I) as (a & af & nd & AR & JJ & RD). cbn [proj map] in AR. rewrite (surjective_pairing (t i)) in AR.
    inversion AR as [|? ? ? a1 ? ? AC AR']; subst.
    destruct (may T i) eqn:MI.
    - assert (AG : b i = false -> agK m (V h)).
      { intros BF. apply B3. eapply (no_writer p sz n K may own); eauto. rewrite app_length; unfold T; lia. }
      set (Q := fun L => exists e, since may (S T) e i /\ absent (pp i) K (acc_at i e ts) /\ L = length (acc_at i e ts)).
      destruct (J3_cycle_may (pp i) (W i I) K (b i) (own T i) _ _ _ _ _ _ _ _ _ _ _ _ Q JJ AC (D i I) AG) as (b' & nd' & JN & N1 & N2 & N3).
      { intros L (e & S1 & S2 & ->) LE. eauto. }
      { intros L (e & S1 & S2 & ->) LE. rewrite <- (acc_at_all _ _ _ LE). auto. }
      { intros L (e & S1 & S2 & ->). apply acc_at_len. }
      { intros RE. split; [exact (WF i I RE)|]. split; [|exact (OWN i I RE)]. intros TT. destruct (TCH i I RE TT) as (e & E1 & E2). exists (length (acc_at i e ts)), e. auto. }
      exists b'. split; auto. split; auto. split; auto. exists a1, af, nd'. split; auto. split.
      + rewrite proj_app, accepted_app, responses_app, seen_snoc. cbn [proj map]. rewrite acc1, resp1.
        eapply J3_V; [exact JN|]. apply agr_true. apply agree_sym. rewrite V_snoc. apply (cyc_keep p sz n W K HK); auto.
        intros j J RE. split; auto. intros NE MM. apply NE. apply (sy_excl _ _ _ _ _ _ _ SY T j i); auto; rewrite app_length; unfold T; lia.
      + intros _ e SN AB LE. rewrite EA in AB, LE by auto. eapply N2; eauto. exists e. auto.
    - assert (BF : b i = false) by (destruct (b i) eqn:E; auto; rewrite B1 in MI; auto).
      rewrite BF in JJ.
      destruct (J3_cycle (pp i) (W i I) K _ _ _ _ _ _ _ _ _ _ _ _ _ _ JJ AC (D i I)) as (nd' & JN).
      { intros RE. split; [exact (WF i I RE)|]. intros TT. rewrite MAY in MI; auto. discriminate MI. }
      exists false. split; auto. split; [rewrite BF; auto|]. split; [intros RE TT; rewrite MAY in MI; auto|].
      exists a1, af, nd'. split; auto. split; [|intros X; discriminate X].
      rewrite proj_app, accepted_app, responses_app, seen_snoc. cbn [proj map]. rewrite acc1, resp1.
      eapply J3_V; [exact JN | apply agr_false]. }
  apply fin_choice in STEP. destruct STEP as (b' & ST).
  exists b'. split; [|split].
  - intros i I. apply (ST i I).
  - intros i I. apply (ST i I).
  - intros NW.
    assert (MN : forall j, (j < n)%nat -> i_req_en (fst (t j)) = true -> ~ modifies p (i_req (fst (t j))) K).
    { intros j J RE MM. destruct (ST j J) as (_ & _ & X & _). specialize (NW j J). rewrite X, OWN in NW by auto using mod_touch. discriminate NW. }
    eapply agree_trans.
    + apply B3. intros i I. destruct (ST i I) as (_ & X & _). specialize (NW i I). destruct (b i); auto. rewrite X in NW by auto. auto.
    + apply agree_sym. rewrite V_snoc. apply (cyc_keep_all p n K HK). intros j J RE. auto.
Qed.

Lemma inv_ext : forall ts0 h ts m rq rs ts', synced p sz n K may own ts0 -> (length ts <= length ts0)%nat ->
  Inv (length ts) (length ts) h ts m rq rs ts' -> Inv (length ts) (S (length ts)) h ts m rq rs ts'.
Proof.
  intros ts0 h ts m rq rs ts' SY LT0 (b & B1 & B2 & B3). set (T := length ts) in *.
  assert (STEP : forall i, (i < n)%nat -> exists b', (b' = true -> may T i = true) /\ (b i = true -> b' = true) /\
     exists a af nd, aruns (pp i) a (proj i ts') af /\
     J3 (pp i) K b' (b' && own T i) (V h) a m (rq i) (rs i) (accepted (proj i ts)) (responses (proj i ts)) (seen i h) nd /\
     (may T i = true -> forall e, since may (S T) e i -> absent (pp i) K (acc_at i e ts) -> (length (acc_at i e ts) <= nd)%nat -> b' = true)).
  { intros i I. destruct (B2 i I) as (a & af & nd & AR & JJ & RD). destruct (may T i) eqn:MI.
    - assert (AG : b i = false -> agK m (V h)).
      { intros BF. apply B3. eapply (no_writer p sz n K may own); eauto. }
      destruct (J3_promote (pp i) (W i I) K _ _ _ _ _ _ _ _ _ _ _ JJ AG) as (b' & JN & N1 & N2).
      exists b'. split; auto. split; auto. exists a, af, nd. split; auto. split; auto. intros _ e [S1 S2] AB LE.
      destruct (Nat.eq_dec e T) as [->|NE].
      + unfold acc_at, T in AB, LE. rewrite firstn_all in AB, LE. apply N2; auto. apply J3_nd in JN; auto. lia.
      + apply N1. apply (RD eq_refl e); auto. split; [lia|]. intros t' HT. apply S2. lia.
    - exists (b i). split; [intros X; rewrite <- MI; apply (B1 i I X)|]. split; auto. exists a, af, nd. split; auto. split; auto. intros X. discriminate X. }
  apply fin_choice in STEP. destruct STEP as (b' & ST). exists b'. split; [|split].
  - intros i I. apply (ST i I).
  - intros i I. apply (ST i I).
  - intros NW. apply B3. intros i I. destruct (ST i I) as (_ & X & _). specialize (NW i I). destruct (b i); auto. rewrite X in NW by auto. auto.
Qed.

Lemma inv_next : forall T h ts m rq rs ts', length ts = S T -> synced p sz n K may own (ts ++ ts') ->
  Inv T (S T) h ts m rq rs ts' -> Inv (S T) (S T) h ts m rq rs ts'.
Proof.
  intros T h ts m rq rs ts' LT SY (b & B1 & B2 & B3).
  assert (PAST : forall i, proj i (firstn (S T) (ts ++ ts')) = proj i ts).
  { intros i. rewrite firstn_app, <- LT, Nat.sub_diag, firstn_all. cbn [firstn]. rewrite app_nil_r. auto. }
  assert (LE : (T < length (ts ++ ts'))%nat) by (rewrite app_length; lia).
  assert (STEP : forall i, (i < n)%nat ->
     (exists a af nd, aruns (pp i) a (proj i ts') af /\
       J3 (pp i) K (b i && may (S T) i) (b i && may (S T) i && own (S T) i) (V h) a m (rq i) (rs i)
         (accepted (proj i ts)) (responses (proj i ts)) (seen i h) nd /\
       (may (S T) i = true -> forall e, since may (S T) e i -> absent (pp i) K (acc_at i e ts) -> (length (acc_at i e ts) <= nd)%nat -> b i && may (S T) i = true)) /\
     (b i && own T i = true -> own (S T) i = false -> agK m (V h))).
  { intros i I. destruct (B2 i I) as (a & af & nd & AR & JJ & RD). pose proof JJ as JN. apply J3_nd in JN; auto. destruct JN as [[N1 N2] _].
    assert (DN : b i = true -> own T i = true -> own (S T) i = false ->
      J3 (pp i) K true false (V h) a m (rq i) (rs i) (accepted (proj i ts)) (responses (proj i ts)) (seen i h) nd).
    { intros BI O1 O2. rewrite BI in JJ. destruct (sy_disown _ _ _ _ _ _ _ SY i T I LE O1 O2) as [R1 R2]. rewrite PAST in R1, R2.
      apply (J3_down (pp i) K HK (true && own T i)); auto.
      - intros l r NE1 TT. specialize (R1 l r NE1 TT). lia.
      - intros (A1 & r & A2 & EQ & WW & NF).
        assert (NR : nth_error (accepted (proj i ts)) (length A1) = Some r).
        { rewrite <- (firstn_skipn nd (accepted (proj i ts))), EQ, <- app_assoc, nth_error_app2, Nat.sub_diag by lia. auto. }
        destruct (R2 _ _ NR WW) as (l' & f & L1 & L2 & NF' & TF).
        assert (FE : firstn l' (accepted (proj i ts)) = firstn l' (firstn nd (accepted (proj i ts)))).
        { rewrite firstn_firstn. f_equal. lia. }
        rewrite <- (firstn_skipn nd (accepted (proj i ts))), nth_error_app1 in NF'.
        2:{ rewrite firstn_length_le; lia. }
        rewrite FE, EQ in TF. rewrite EQ in NF'.
        rewrite nth_error_app2 in NF' by lia. destruct (l' - length A1)%nat as [|k] eqn:EL; [lia|]. cbn in NF'.
        apply nth_error_split in NF'. destruct NF' as (B & C & EA & LB).
        apply (NF B f C EA). rewrite EA in TF.
        assert (XX : firstn l' (A1 ++ r :: B ++ f :: C) = A1 ++ r :: B).
        { replace (A1 ++ r :: B ++ f :: C) with ((A1 ++ r :: B) ++ f :: C) by (rewrite <- app_assoc; auto).
          rewrite firstn_app. replace (l' - length (A1 ++ r :: B))%nat with 0%nat by (rewrite app_length; cbn [length]; lia).
          rewrite firstn_all2 by (rewrite app_length; cbn [length]; lia). cbn [firstn]. apply app_nil_r. }
        rewrite XX in TF. auto. }
    split.
    2:{ intros BO OF. apply andb_prop in BO. destruct BO as [BI OT]. eapply (J3_clean (pp i)); eauto. }
    exists a, af, nd. split; auto. split.
    - destruct (b i) eqn:BI; [|exact JJ]. cbn [andb] in JJ |- *.
      assert (J1 : J3 (pp i) K true (own (S T) i) (V h) a m (rq i) (rs i) (accepted (proj i ts)) (responses (proj i ts)) (seen i h) nd).
      { destruct (own (S T) i) eqn:OS; [eapply J3_up; eauto|]. destruct (own T i) eqn:OT; auto. }
      destruct (may (S T) i) eqn:MS; cbn [andb]; auto.
      assert (OS : own (S T) i = false).
      { destruct (own (S T) i) eqn:OS; auto. rewrite (sy_may _ _ _ _ _ _ _ SY (S T) i LE I OS) in MS. discriminate MS. }
      rewrite OS in J1. eapply J3_leave; eauto. intros l r NE1 TT.
      pose proof (sy_leave _ _ _ _ _ _ _ SY i T I LE (B1 i I BI) MS) as R. cbv zeta in R. rewrite PAST in R. specialize (R l r NE1 TT). lia.
    - intros MS e SN AB LL. rewrite MS, andb_true_r. destruct SN as [S1 S2]. apply (RD (S2 T ltac:(lia)) e); auto. split; auto. }
  exists (fun i => b i && may (S T) i). split; [|split].
  - intros i I X. apply andb_prop in X. apply X.
  - intros i I. apply (STEP i I).
  - intros NW.
    assert (DEC : (exists i, (i < n)%nat /\ b i && own T i = true) \/ (forall i, (i < n)%nat -> b i && own T i = false)).
    { clear. induction n as [|k IH]; [right; intros; lia|]. destruct IH as [(i & I & B) | IH]; [left; exists i; split; auto; lia|].
      destruct (b k && own T k) eqn:E; [left; exists k; split; auto; lia|]. right. intros i I. destruct (Nat.eq_dec i k) as [->|]; auto. apply IH. lia. }
    destruct DEC as [(i & I & BI) | NB]; auto. apply (STEP i I); auto.
    specialize (NW i I). cbv beta in NW. apply andb_prop in BI. destruct BI as [BI _]. rewrite BI in NW. cbn [andb] in NW.
    destruct (own (S T) i) eqn:OS; auto. rewrite (sy_may _ _ _ _ _ _ _ SY (S T) i LE I OS) in NW. auto.
Qed.


(** *** The device *)
Lemma set_other : forall m a v, word_num a <> K -> agK m (set_byte m a v).
Proof. intros m a v NE x X M. apply mk_true in M. destruct M as [_ M]. unfold set_byte. destruct (N.eqb_spec x a) as [->|]; [contradiction | auto]. Qed.
Lemma set_both : forall m m' a v, agK m m' -> agK (set_byte m a v) (set_byte m' a v).
Proof. intros m m' a v H x X M. unfold set_byte. destruct (x =? a); auto. Qed.
Lemma dev_pre : forall h e, dev_synced n K may own (h ++ [e]) -> dev_synced n K may own h.
Proof.
  intros h e [D1 D2]. constructor.
  - intros h1 a v h2 E. apply (D1 h1 a v (h2 ++ [e])). rewrite E, <- app_assoc. auto.
  - intros h1 a v h2 E. apply (D2 h1 a v (h2 ++ [e])). rewrite E, <- app_assoc. auto.
Qed.

Theorem inv_all : forall h m rq rs, dmem p n m0 h m rq rs ->
  forall ts', synced p sz n K may own (cycles h ++ ts') -> dev_synced n K may own h -> clients p sz n s0 (cycles h ++ ts') ->
  (forall i, (i < n)%nat -> exists c0 af, clean_start (pp i) c0 /\ aruns (pp i) (mkA c0 None []) (proj i (cycles h ++ ts')) af) ->
  Inv (length (cycles h)) (S (length (cycles h))) h (cycles h) m rq rs ts'.
Proof.
  intros h m rq rs H. induction H as [|h m rq rs j q l H IH L E | h m rq rs t H IH D | h m rq rs a H IH | h m rq rs a v H IH]; intros ts' SY DS C AS.
  - exists (may 0). split; [|split].
    + auto.
    + intros i I. destruct (AS i I) as (c0 & af & CS & AR). exists (mkA c0 None []), af, 0%nat. split; auto. split; auto.
      apply (J3_start (pp i) (W i I) K); auto.
    + intros _. apply agree_refl.
  - destruct (IH ts' SY DS C AS) as (b & B1 & B2 & B3). exists b. split; auto.
    destruct (B2 j L) as (aj & afj & ndj & ARj & JJ & RDj). rewrite E in JJ.
    assert (OTH : forall i, (i < n)%nat -> i <> j -> agree p (mk K (b i)) m (fst (mem_exec p m q))).
    { intros i I NE. destruct (b j && own (length (cycles h)) j) eqn:BJ.
      - destruct (b i) eqn:BI; [|apply agr_false]. apply andb_prop in BJ. destruct BJ as [_ OJ].
        exfalso. apply NE. symmetry. eapply (sy_excl _ _ _ _ _ _ _ SY (length (cycles h))); eauto. rewrite app_length; lia.
      - apply agr_true. eapply (J3_touch (pp j)); eauto. }
    split.
    + intros i I. unfold setq. destruct (Nat.eqb_spec i j) as [->|NE].
      * exists aj, afj, ndj. split; auto. split; auto. apply (J3_exec (pp j)); auto.
      * destruct (B2 i I) as (a & af & nd & AR & JI & RD). exists a, af, nd. split; auto. split; auto. eapply J3_other; eauto.
    + intros AF. pose proof (AF j L) as BJ. rewrite BJ in JJ. eapply agree_trans; [apply agree_sym; eapply (J3_touch (pp j)); eauto | auto].
  - rewrite cycles_c, <- app_assoc in SY, C, AS. cbn [app] in SY, C, AS.
    assert (C1 : clients p sz n s0 (cycles h ++ [t])).
    { apply (clients_app _ _ _ _ _ ts'). rewrite <- app_assoc. auto. }
    pose proof (inv_cycle _ _ _ _ _ _ _ SY C1 D (IH (t :: ts') SY (dev_pre _ _ DS) C AS)) as HI.
    rewrite cycles_c. assert (LN : @length cyc (cycles h ++ [t]) = S (length (cycles h))) by (rewrite app_length; cbn; lia).
    apply (inv_ext ((cycles h ++ [t]) ++ ts')); [rewrite <- app_assoc; auto | rewrite !app_length; cbn [length]; lia|]. match goal with |- Inv ?x _ _ _ _ _ _ _ => replace x with (S (length (cycles h))) by (symmetry; exact LN) end. apply inv_next; auto. rewrite <- app_assoc. auto.
  - rewrite cycles_d in *. destruct (IH ts' SY (dev_pre _ _ DS) C AS) as (b & B1 & B2 & B3). exists b. rewrite V_read. split; auto. split; auto.
    intros i I. rewrite seen_d. apply B2; auto.
  - rewrite cycles_d in *. destruct (IH ts' SY (dev_pre _ _ DS) C AS) as (b & B1 & B2 & B3). exists b. rewrite V_write. split; auto.
    assert (WK : word_num a = K -> forall i, (i < n)%nat -> may (length (cycles h)) i = false) by (intros E i I; apply (dv_write _ _ _ _ _ DS h a v []); auto).
    assert (AG : forall i m', (i < n)%nat -> agree p (mk K (b i)) m' (set_byte m' a v)).
    { intros i m' I. destruct (b i) eqn:BI; [|apply agr_false]. apply set_other. intros E. pose proof (B1 i I BI) as M. rewrite WK in M by auto. discriminate M. }
    split.
    + intros i I. destruct (B2 i I) as (x & af & nd & AR & JI & RD). exists x, af, nd. split; auto. split; auto. rewrite seen_d.
      eapply J3_V; [eapply J3_other; [exact JI|]|]; apply AG; auto.
    + intros AF. apply set_both. auto.
Qed.
Lemma inv_run : forall h m rq rs, dmem p n m0 h m rq rs -> clients p sz n s0 (cycles h) -> synced p sz n K may own (cycles h) -> dev_synced n K may own h ->
  Inv (length (cycles h)) (S (length (cycles h))) h (cycles h) m rq rs [].
Proof.
  intros h m rq rs H C SY DS. apply inv_all; auto; rewrite ?app_nil_r; auto. intros i I.
  destruct (clients_ast _ _ _ _ H C i I) as (c0 & a & CS & AR). eauto.
Qed.

(** *** Results *)
Theorem dma_resp : forall h1 t h2 m rq rs i y, let h := h1 ++ HC t :: h2 in dmem p n m0 h m rq rs -> clients p sz n s0 (cycles h) ->
  synced p sz n K may own (cycles h) -> dev_synced n K may own h -> (i < n)%nat -> i_req_en (fst (t i)) = true ->
  nth_error (responses (proj i (cycles h))) (length (accepted (proj i (cycles h1)))) = Some y ->
  resp2 (pp i) K (V h1) (i_req (fst (t i))) y.
Proof.
  intros h1 t h2 m rq rs i y h H C SY DS I RE NY. destruct (inv_run _ _ _ _ H C SY DS) as (b & _ & B2 & _).
  destruct (B2 i I) as (a & af & nd & _ & JJ & _). eapply (J3_resp (pp i)); eauto.
  - unfold h. rewrite cycles_app, proj_app, accepted_app. change (cycles (HC t :: h2)) with (t :: cycles h2). cbn [proj map].
    change (t i :: map (fun t0 => t0 i) (cycles h2)) with ([t i] ++ proj i (cycles h2)).
    rewrite accepted_app, acc1, RE. rewrite nth_error_app2, Nat.sub_diag by lia. auto.
  - unfold seen, h. rewrite seen_from_app. cbn [seen_from app]. rewrite RE. rewrite <- (seen_from_len i h1 []).
    rewrite nth_error_app2, Nat.sub_diag by lia. auto.
Qed.
Theorem dma_mem : forall h m rq rs a, dmem p n m0 h m rq rs -> clients p sz n s0 (cycles h) -> synced p sz n K may own (cycles h) -> dev_synced n K may own h ->
  (forall i, (i < n)%nat -> own (length (cycles h)) i = false) -> a < 2 ^ p_abw p -> word_num a = K -> trunc 8 (m a) = trunc 8 (V h a).
Proof.
  intros h m rq rs a H C SY DS NO A WK. destruct (inv_run _ _ _ _ H C SY DS) as (b & B1 & _ & B3). apply B3; auto.
  - intros i I. rewrite NO by auto. apply andb_false_r.
  - unfold mk. rewrite WK, N.eqb_refl. auto.
Qed.
Lemma dmem_prefix : forall h m rq rs, dmem p n m0 h m rq rs -> forall h1 e h2, h = h1 ++ e :: h2 ->
  exists m1 rq1 rs1, dmem p n m0 h1 m1 rq1 rs1 /\ match e with HD (DRead a x) => x = trunc 8 (m1 a) | _ => True end.
Proof.
  assert (SN : forall A (h h1 h2 : list A) e e', h ++ [e] = h1 ++ e' :: h2 -> (h1 = h /\ e' = e /\ h2 = []) \/ exists h3, h = h1 ++ e' :: h3).
  { intros A h h1 h2 e e' E. destruct h2 as [|x h2] using rev_ind.
    - apply app_inj_tail in E. destruct E; subst. auto.
    - right. exists h2. change (h1 ++ e' :: h2 ++ [x]) with (h1 ++ (e' :: h2) ++ [x]) in E. rewrite app_assoc in E. apply app_inj_tail in E. tauto. }
  intros h m rq rs H. induction H as [|h m rq rs j q l H IH L E | h m rq rs t H IH D | h m rq rs a H IH | h m rq rs a v H IH]; intros h1 e h2 EE.
  - destruct h1; discriminate EE.
  - eauto.
  - apply SN in EE. destruct EE as [(-> & -> & _)|(h3 & ->)]; eauto 6.
  - apply SN in EE. destruct EE as [(-> & -> & _)|(h3 & ->)]; eauto 7.
  - apply SN in EE. destruct EE as [(-> & -> & _)|(h3 & ->)]; eauto 6.
Qed.
Theorem dma_read : forall h1 a x h2 m rq rs, let h := h1 ++ HD (DRead a x) :: h2 in dmem p n m0 h m rq rs -> clients p sz n s0 (cycles h) ->
  synced p sz n K may own (cycles h) -> dev_synced n K may own h -> a < 2 ^ p_abw p -> word_num a = K -> x = trunc 8 (V h1 a).
Proof.
  intros h1 a x h2 m rq rs h H C SY DS A WK. destruct (dmem_prefix _ _ _ _ H h1 _ h2 eq_refl) as (m1 & rq1 & rs1 & H1 & ->).
  assert (EC : cycles h = cycles h1 ++ cycles h2) by (unfold h; rewrite cycles_app; auto). pose proof C as C0. rewrite EC in SY, C.
  assert (DS1 : dev_synced n K may own h1).
  { unfold h in DS. destruct DS as [D1 D2]. constructor; intros g1 b v g2 EG.
    - apply (D1 g1 b v (g2 ++ HD (DRead a (trunc 8 (m1 a))) :: h2)). rewrite EG, <- app_assoc. auto.
    - apply (D2 g1 b v (g2 ++ HD (DRead a (trunc 8 (m1 a))) :: h2)). rewrite EG, <- app_assoc. auto. }
  destruct (inv_all _ _ _ _ H1 (cycles h2) SY DS1 C) as (b & B1 & B2 & B3).
  { intros i I. destruct (clients_ast _ _ _ _ H C0 i I) as (c0 & af & CS & AR). rewrite EC in AR. eauto. }
  apply B3; auto.
  - intros i I. rewrite (dv_read _ _ _ _ _ DS h1 a _ h2 eq_refl WK i I). apply andb_false_r.
  - unfold mk. rewrite WK, N.eqb_refl. auto.
Qed.
End G.
