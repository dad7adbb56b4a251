(** An executable system of one cache, memory and a device, used to exhibit concrete runs. *)
From Coq Require Import Arith NArith List Bool Lia.
From Verif Require Import Bits Params Msg Rtl Mem Spec System SysProofs SysFacts Traffic Harness MultiSys MultiFacts MultiHarness Hide DynSpec DynFacts DynMore DmaSpec Dma.
Import ListNotations.
Open Scope N_scope.

(** a cycle, a read or a write of the device *)
Inductive act := ACyc (c : choice) | ARd (a : N) | AWr (a v : N).
Definition zone (p : params) (i : nat) : N * N := (p_num_bytes p, p_assoc p).
Definition one (x : inp * outp) : cyc := fun _ => x.
Fixpoint ddrive (p : params) (s : st) (m : mem) (ra : list mresp) (ta : list creq) (L : list act) : list hev * mem :=
  match L with
  | [] => ([], m)
  | ARd a :: L => let r := ddrive p s m ra ta L in (HD (DRead a (trunc 8 (m a))) :: fst r, snd r)
  | AWr a v :: L => let r := ddrive p s (set_byte m a v) ra ta L in (HD (DWrite a v) :: fst r, snd r)
  | ACyc c :: L =>
      let i := inp_of p s ra ta c in
      let o := output p s i in
      let e := exec_opt p m (if i_mresp_en i then tl ra else ra) (o_mreq o) in
      let r := ddrive p (next p s i) (fst e) (snd e) (if i_req_en i then tl ta else ta) L in
      (HC (one (i, o)) :: fst r, snd r)
  end.

Section H.
Variable p : params.
Lemma ddrive_mem : forall m00 L s m ra ta h rq rs, dmem p 1 m00 h m rq rs -> rq 0%nat = [] -> rs 0%nat = ra ->
  exists rq' rs', dmem p 1 m00 (h ++ fst (ddrive p s m ra ta L)) (snd (ddrive p s m ra ta L)) rq' rs'.
Proof.
  intros m00. induction L as [|[c|a|a v] L IH]; intros s m ra ta h rq rs D Q R; cbn [ddrive fst snd].
  - rewrite app_nil_r. eauto.
  - set (i := inp_of p s ra ta c). set (o := output p s i).
    assert (A : dmem p 1 m00 (h ++ [HC (one (i, o))]) m (fun j => rq j ++ opt_list (o_mreq (snd (one (i, o) j)))) (fun j => if i_mresp_en (fst (one (i, o) j)) then tl (rs j) else rs j)).
    { apply dm_cycle; auto. intros j J E. destruct j; [|lia]. cbn [one fst] in *. rewrite R. apply (inp_of_resp p s ra ta c E). }
    cbn [one fst snd] in A. change (HC (one (i, o)) :: ?l) with ([HC (one (i, o))] ++ l). rewrite app_assoc.
    destruct (o_mreq o) as [q|] eqn:EQ; cbn [exec_opt fst snd].
    + eapply IH.
      * eapply (dm_exec p 1 m00 _ _ _ _ 0 q []); [exact A | lia|]. cbn beta. rewrite Q. reflexivity.
      * unfold setq. reflexivity.
      * unfold setq. cbn [Nat.eqb]. rewrite R. auto.
    + eapply IH; [exact A | |]; cbn beta; rewrite ?Q, ?R; auto.
  - change (HD ?d :: ?l) with ([HD d] ++ l). rewrite app_assoc. eapply IH; [apply dm_read; exact D | auto | auto].
  - change (HD ?d :: ?l) with ([HD d] ++ l). rewrite app_assoc. eapply IH; [apply dm_write; exact D | auto | auto].
Qed.
Lemma ddrive_cache : forall L s m ra ta, Forall (wf_req p) ta ->
  let ts := proj 0 (cycles (fst (ddrive p s m ra ta L))) in ts = trace_of p s (map fst ts) /\ client_ok p ts.
Proof.
  induction L as [|[c|a|a v] L IH]; intros s m ra ta F; cbn [ddrive fst snd].
  - split; [reflexivity | constructor].
  - set (i := inp_of p s ra ta c). set (o := output p s i). set (e := exec_opt p m _ _).
    change (cycles (HC (one (i, o)) :: ?l)) with (one (i, o) :: cycles l). cbn [proj map]. fold (proj 0).
    pose proof (inp_of_req p s ra ta c) as IR. cbv zeta in IR. fold i in IR.
    assert (F' : Forall (wf_req p) (if i_req_en i then tl ta else ta)).
    { destruct (i_req_en i); auto. destruct ta; auto. inversion F; auto. }
    destruct (IH (next p s i) (fst e) (snd e) _ F') as [I1 I2]. cbn [one fst].
    split.
    + cbn [fst]. rewrite trace_cons. fold o. f_equal. exact I1.
    + constructor; auto. cbn [fst snd]. intros RE. destruct (IR RE) as (X & l & ET). split; [exact X|]. rewrite Forall_forall in F. apply F. rewrite ET. left. reflexivity.
  - change (cycles (HD ?d :: ?l)) with (cycles l). apply IH; auto.
  - change (cycles (HD ?d :: ?l)) with (cycles l). apply IH; auto.
Qed.
Theorem ddrive_ok : forall s m ta L, reset_state p s -> Forall (wf_req p) ta -> let h := fst (ddrive p s m [] ta L) in
  clients p (zone p) 1 (fun _ => s) (cycles h) /\ exists m' rq rs, dmem p 1 m h m' rq rs.
Proof.
  intros s m ta L R F h. split.
  - intros i I. destruct i; [|lia]. assert (E : sized p (zone p) 0 = p) by (destruct p; reflexivity). rewrite E. split; auto. apply (ddrive_cache L s m [] ta F).
  - destruct (ddrive_mem m L s m [] ta [] no_reqs no_resps) as (rq & rs & D); auto; [constructor|]. eauto.
Qed.
End H.

(** Executable check of the device's discipline. *)
Fixpoint dev_from (n : nat) (k : N) (may own : nat -> nat -> bool) (t : nat) (h : list hev) : bool :=
  match h with
  | [] => true
  | HC _ :: h => dev_from n k may own (S t) h
  | HD (DWrite a _) :: h => (negb (word_num a =? k) || forallb (fun i => negb (may t i)) (seq 0 n)) && dev_from n k may own t h
  | HD (DRead a _) :: h => (negb (word_num a =? k) || forallb (fun i => negb (own t i)) (seq 0 n)) && dev_from n k may own t h
  end.
Lemma dev_ok : forall n k may own h, dev_from n k may own 0 h = true -> dev_synced n k may own h.
Proof.
  intros n k may own h H.
  assert (G : forall h t, dev_from n k may own t h = true -> forall h1 d h2, h = h1 ++ HD d :: h2 ->
    match d with
    | DWrite a _ => word_num a = k -> forall i, (i < n)%nat -> may (t + length (cycles h1))%nat i = false
    | DRead a _ => word_num a = k -> forall i, (i < n)%nat -> own (t + length (cycles h1))%nat i = false
    end).
  { clear. induction h as [|[c|d0] h IH]; intros t H h1 d h2 E.
    - destruct h1; discriminate E.
    - destruct h1 as [|x h1]; cbn [app] in E; inversion E; subst. specialize (IH (S t) H h1 d h2 eq_refl).
      change (length (cycles (HC c :: h1))) with (S (length (cycles h1))). rewrite <- plus_n_Sm. exact IH.
    - assert (H2 : dev_from n k may own t h = true) by (destruct d0; cbn [dev_from] in H; apply andb_prop in H; tauto).
      destruct h1 as [|x h1]; cbn [app] in E; inversion E; subst; [|exact (IH t H2 h1 d h2 eq_refl)]. cbn [cycles flat_map length]. rewrite Nat.add_0_r.
      destruct d as [a x|a x]; cbn [dev_from] in H; apply andb_prop in H; destruct H as [H _]; intros EK i I; rewrite EK, N.eqb_refl in H; cbn [negb orb] in H;
        rewrite forallb_forall in H; apply negb_true_iff, H, in_seq; lia. }
  constructor; intros h1 a v h2 E; exact (G h 0%nat H h1 _ h2 E).
Qed.
