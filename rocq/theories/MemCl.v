(** The behavioural test memory, test/MemoryCL.py: several ports over one byte
    memory.  The queues come from pymtl3's stdlib (StallCL, DelayPipeDeqCL,
    DelayPipeSendCL, lines 50-58), which is not part of this repository: they are
    modelled as FIFOs whose ready signals are arbitrary in every cycle, which
    covers every latency and stall probability. *)
From Coq Require Import PeanoNat NArith List Bool Lia.
From Verif Require Import Bits Params Msg Rtl Mem System.
Import ListNotations.
Open Scope N_scope.

(** Queues of one port: requests not yet executed, answers not yet delivered
    (lines 50-58). *)
Record mport := mkPort { pq : list mreq; pr : list mresp }.
Record mcl := mkMcl { mc_mem : mem; mc_ports : nat -> mport }.
Definition mcl0 (m : mem) : mcl := mkMcl m (fun _ => mkPort [] []).
Definition pset (f : nat -> mport) (i : nat) (v : mport) : nat -> mport := fun j => if Nat.eqb j i then v else f j.

Section M.
Variable p : params.   (* gives data_nbits of every port's request class (line 60) *)
Variable n : nat.      (* nports *)

(** up_mem, body of the loop (lines 67-104) for port [i]; [rdy] is
    [deq.rdy() and enq.rdy()] as far as the delays and stalls go. *)
Definition mcl_port (rdy : nat -> bool) (s : mcl) (i : nat) : mcl :=
  match pq (mc_ports s i) with
  | q :: r => if rdy i then
                let '(m, x) := mem_exec p (mc_mem s) q in
                mkMcl m (pset (mc_ports s) i (mkPort r (pr (mc_ports s i) ++ [x])))
              else s
  | [] => s
  end.
(** up_mem (lines 62-104): ports in index order *)
Definition mcl_tick (s : mcl) (rdy : nat -> bool) : mcl := fold_left (mcl_port rdy) (seq 0 n) s.

(** What happens at the interface: a request arrives at a port, an answer leaves
    a port, or the update block runs. *)
Inductive mev := EArr (i : nat) (q : mreq) | EDel (i : nat) | ETick (rdy : nat -> bool).
Definition mcl_step (s : mcl) (e : mev) : mcl :=
  match e with
  | EArr i q => mkMcl (mc_mem s) (pset (mc_ports s) i (mkPort (pq (mc_ports s i) ++ [q]) (pr (mc_ports s i))))
  | EDel i => mkMcl (mc_mem s) (pset (mc_ports s) i (mkPort (pq (mc_ports s i)) (tl (pr (mc_ports s i)))))
  | ETick rdy => mcl_tick s rdy
  end.
Definition mcl_run (s : mcl) (es : list mev) : mcl := fold_left mcl_step es s.

(** Requests that arrived at port [i], answers that left it, in order. *)
Definition arrivals (i : nat) (es : list mev) : list mreq :=
  flat_map (fun e => match e with EArr j q => if Nat.eqb j i then [q] else [] | _ => [] end) es.
Fixpoint deliveries (i : nat) (s : mcl) (es : list mev) : list mresp :=
  match es with
  | [] => []
  | e :: es => (match e with EDel j => if Nat.eqb j i then firstn 1 (pr (mc_ports s i)) else [] | _ => [] end)
               ++ deliveries i (mcl_step s e) es
  end.

(** *** Ghost log of executions *)
Definition log_port (rdy : nat -> bool) (s : mcl) (i : nat) : list (nat * mreq) :=
  match pq (mc_ports s i) with q :: _ => if rdy i then [(i, q)] else [] | [] => [] end.
Fixpoint log_ports (rdy : nat -> bool) (s : mcl) (l : list nat) : list (nat * mreq) :=
  match l with [] => [] | i :: l => log_port rdy s i ++ log_ports rdy (mcl_port rdy s i) l end.
Fixpoint mlog (s : mcl) (es : list mev) : list (nat * mreq) :=
  match es with
  | [] => []
  | e :: es => (match e with ETick rdy => log_ports rdy s (seq 0 n) | _ => [] end) ++ mlog (mcl_step s e) es
  end.

Definition of_port {A} (i : nat) (l : list (nat * A)) : list A := map snd (filter (fun x => Nat.eqb (fst x) i) l).
Lemma of_port_app : forall A i (l l' : list (nat * A)), of_port i (l ++ l') = of_port i l ++ of_port i l'.
Proof. intros. unfold of_port. rewrite filter_app, map_app. auto. Qed.

(** results of a list of requests tagged with ports *)
Definition results (m : mem) (ex : list (nat * mreq)) : list (nat * mresp) :=
  combine (map fst ex) (snd (mem_run p m (map snd ex))).
Definition after (m : mem) (ex : list (nat * mreq)) : mem := fst (mem_run p m (map snd ex)).

Lemma run_cons : forall m q l, mem_run p m (q :: l) =
  (fst (mem_run p (fst (mem_exec p m q)) l), snd (mem_exec p m q) :: snd (mem_run p (fst (mem_exec p m q)) l)).
Proof.
  intros. cbn [mem_run]. destruct (mem_exec p m q) as [m1 x]. cbn [fst snd]. destruct (mem_run p m1 l). auto.
Qed.
Lemma mrun_app : forall qs qs' m,
  mem_run p m (qs ++ qs') =
  (fst (mem_run p (fst (mem_run p m qs)) qs'), snd (mem_run p m qs) ++ snd (mem_run p (fst (mem_run p m qs)) qs')).
Proof.
  induction qs as [|q qs IH]; intros qs' m; cbn [app].
  - cbn. destruct (mem_run p m qs'); auto.
  - rewrite !run_cons, IH. cbn [fst snd app]. auto.
Qed.
Lemma mrun_len : forall l m, length (snd (mem_run p m l)) = length l.
Proof. induction l; intros; auto. rewrite run_cons. cbn [snd length]. auto. Qed.
Lemma combine_app : forall A B (a a' : list A) (b b' : list B), length a = length b ->
  combine (a ++ a') (b ++ b') = combine a b ++ combine a' b'.
Proof. induction a; destruct b; cbn; intros; try discriminate; auto. f_equal. auto. Qed.
Lemma after_app : forall m l l', after m (l ++ l') = after (after m l) l'.
Proof. intros. unfold after. rewrite map_app, mrun_app. auto. Qed.
Lemma results_app : forall m l l', results m (l ++ l') = results m l ++ results (after m l) l'.
Proof.
  intros. unfold results, after. rewrite !map_app, mrun_app. cbn [snd]. apply combine_app.
  rewrite mrun_len, !map_length. auto.
Qed.

(** one port *)
Lemma port_ok : forall rdy s i, let s' := mcl_port rdy s i in let l := log_port rdy s i in
  mc_mem s' = after (mc_mem s) l /\
  (forall j, pq (mc_ports s j) = of_port j l ++ pq (mc_ports s' j)) /\
  (forall j, pr (mc_ports s' j) = pr (mc_ports s j) ++ of_port j (results (mc_mem s) l)).
Proof.
  intros rdy s i. cbv zeta. unfold mcl_port, log_port. destruct (pq (mc_ports s i)) as [|q r] eqn:E.
  { cbn. split; auto. split; intros; auto. rewrite app_nil_r. auto. }
  destruct (rdy i).
  2:{ cbn. split; auto. split; intros; auto. rewrite app_nil_r. auto. }
  unfold after, results. cbn [map fst snd]. rewrite run_cons. cbn [mem_run fst snd combine].
  destruct (mem_exec p (mc_mem s) q) as [m x]. cbn [mc_mem mc_ports fst snd].
  split; auto. split; intros j; unfold pset, of_port; cbn [filter fst]; rewrite (Nat.eqb_sym i j);
  destruct (Nat.eqb_spec j i) as [->|NE]; cbn [map snd app pq pr]; rewrite ?app_nil_r; auto.
Qed.

Lemma ports_ok : forall rdy l s, let s' := fold_left (mcl_port rdy) l s in let g := log_ports rdy s l in
  mc_mem s' = after (mc_mem s) g /\
  (forall j, pq (mc_ports s j) = of_port j g ++ pq (mc_ports s' j)) /\
  (forall j, pr (mc_ports s' j) = pr (mc_ports s j) ++ of_port j (results (mc_mem s) g)).
Proof.
  intros rdy. induction l as [|i l IH]; intros s; cbv zeta; cbn [fold_left log_ports].
  - cbn. split; auto. split; intros; auto. rewrite app_nil_r. auto.
  - destruct (port_ok rdy s i) as (P1 & P2 & P3). destruct (IH (mcl_port rdy s i)) as (Q1 & Q2 & Q3).
    rewrite Q1, P1, after_app. split; auto. split; intros j.
    + rewrite P2, Q2, of_port_app, app_assoc. auto.
    + rewrite Q3, P3, results_app, of_port_app, P1, app_assoc. auto.
Qed.

Lemma arrivals_cons : forall i e es, arrivals i (e :: es) =
  (match e with EArr j q => if Nat.eqb j i then [q] else [] | _ => [] end) ++ arrivals i es.
Proof. reflexivity. Qed.

Theorem mcl_ok : forall es s, let s' := mcl_run s es in let g := mlog s es in
  mc_mem s' = after (mc_mem s) g /\
  (forall i, pq (mc_ports s i) ++ arrivals i es = of_port i g ++ pq (mc_ports s' i)) /\
  (forall i, pr (mc_ports s i) ++ of_port i (results (mc_mem s) g) = deliveries i s es ++ pr (mc_ports s' i)).
Proof.
  induction es as [|e es IH]; intros s; cbv zeta.
  - cbn. split; auto. split; intros; rewrite app_nil_r; auto.
  - cbn [mlog deliveries]. destruct (IH (mcl_step s e)) as (P1 & P2 & P3).
    change (mcl_run s (e :: es)) with (mcl_run (mcl_step s e) es).
    destruct e as [j q | j | rdy]; cbn [mcl_step] in *.
    + cbn [app mc_mem mc_ports] in *. split; auto. split; intros i; [rewrite <- P2 | rewrite <- P3]; unfold pset;
      rewrite ?arrivals_cons, ?(Nat.eqb_sym j i); destruct (Nat.eqb_spec i j) as [->|NE]; cbn [pq pr]; auto.
      rewrite <- app_assoc. auto.
    + cbn [app mc_mem mc_ports] in *. split; auto. split; intros i.
      * rewrite <- P2. unfold pset. rewrite arrivals_cons. cbn [app]. destruct (Nat.eqb_spec i j) as [->|NE]; auto.
      * rewrite <- app_assoc, <- P3. unfold pset. rewrite (Nat.eqb_sym j i). destruct (Nat.eqb_spec i j) as [->|NE]; auto.
        cbn [pr]. destruct (pr (mc_ports s j)); auto.
    + destruct (ports_ok rdy (seq 0 n) s) as (Q1 & Q2 & Q3). fold (mcl_tick s rdy) in Q1, Q2, Q3.
      split; [rewrite after_app, <- Q1; auto|]. split; intros i.
      * rewrite arrivals_cons. cbn [app]. rewrite of_port_app, <- app_assoc, <- P2, Q2, app_assoc. auto.
      * rewrite results_app, of_port_app, app_assoc, <- Q1. cbn [app]. rewrite <- P3, Q3. auto.
Qed.

Lemma mlog_app : forall es es' s, mlog s (es ++ es') = mlog s es ++ mlog (mcl_run s es) es'.
Proof.
  induction es as [|e es IH]; intros es' s; auto. cbn [app mlog]. rewrite IH, <- app_assoc. auto.
Qed.
Lemma deliveries_app : forall i es es' s, deliveries i s (es ++ es') = deliveries i s es ++ deliveries i (mcl_run s es) es'.
Proof.
  induction es as [|e es IH]; intros es' s; auto. cbn [app deliveries]. rewrite IH, <- app_assoc. auto.
Qed.

End M.

(** *** One port, as the memory of a cache *)
(** In one cycle of the cache the memory may deliver its oldest answer, takes the
    cache's request, and runs [up_mem]. *)
Definition cycle_ok (s : mcl) (i : inp) : Prop :=
  i_mresp_en i = true -> exists l, pr (mc_ports s 0%nat) = i_mresp i :: l.
Definition cycle_evs (i : inp) (o : outp) (rdy : nat -> bool) : list mev :=
  (if i_mresp_en i then [EDel 0] else []) ++ map (EArr 0) (opt_list (o_mreq o)) ++ [ETick rdy].
Fixpoint serves (p : params) (s : mcl) (tr : trace) (rdys : list (nat -> bool)) : Prop :=
  match tr, rdys with
  | [], [] => True
  | (i, o) :: tr, rdy :: rdys => cycle_ok s i /\ serves p (mcl_run p 1 s (cycle_evs i o rdy)) tr rdys
  | _, _ => False
  end.
Fixpoint mcl_end (p : params) (s : mcl) (tr : trace) (rdys : list (nat -> bool)) : mcl :=
  match tr, rdys with
  | (i, o) :: tr, rdy :: rdys => mcl_end p (mcl_run p 1 s (cycle_evs i o rdy)) tr rdys
  | _, _ => s
  end.

Lemma tick1 : forall p m f rdy tr m' rq' rs',
  let s := mkMcl m f in let s' := mcl_tick p 1 s rdy in
  mem_trace p (mc_mem s') (pq (mc_ports s' 0%nat)) (pr (mc_ports s' 0%nat)) tr m' rq' rs' ->
  mem_trace p m (pq (f 0%nat)) (pr (f 0%nat)) tr m' rq' rs'.
Proof.
  intros p m f rdy tr m' rq' rs'. cbv zeta. unfold mcl_tick. cbn [seq fold_left]. unfold mcl_port. cbn [mc_ports mc_mem].
  destruct (pq (f 0%nat)) as [|q r] eqn:E; cbn [mc_mem mc_ports]; [rewrite E; auto|].
  destruct (rdy 0%nat); cbn [mc_mem mc_ports]; [|rewrite E; auto].
  intros H. apply mt_exec. destruct (mem_exec p m q) as [m1 x]. cbn [fst snd mc_mem mc_ports pset Nat.eqb pq pr] in *. auto.
Qed.

Theorem serves_mem_trace : forall p tr rdys s, serves p s tr rdys ->
  let e := mcl_end p s tr rdys in
  mem_trace p (mc_mem s) (pq (mc_ports s 0%nat)) (pr (mc_ports s 0%nat)) tr
            (mc_mem e) (pq (mc_ports e 0%nat)) (pr (mc_ports e 0%nat)).
Proof.
  induction tr as [|[i o] tr IH]; destruct rdys as [|rdy rdys]; intros s H; cbn [serves mcl_end] in *; try contradiction.
  - constructor.
  - destruct H as [OK H]. specialize (IH rdys _ H). cbv zeta in *.
    set (e := mcl_end p _ tr rdys) in *. clearbody e.
    unfold cycle_evs, mcl_run in IH. rewrite !fold_left_app in IH. cbn [fold_left mcl_step] in IH.
    destruct (i_mresp_en i) eqn:ME.
    + destruct (OK ME) as (l & EL). rewrite EL. eapply mt_answer; eauto.
      cbn [fold_left mcl_step] in IH. rewrite EL in IH. cbn [tl] in IH.
      destruct (o_mreq o) as [q|]; cbn [opt_list map fold_left mcl_step mc_ports mc_mem pset Nat.eqb pq pr] in IH |- *;
      apply tick1 in IH; cbn [pset Nat.eqb pq pr] in IH; rewrite ?app_nil_r; exact IH.
    + apply mt_quiet; auto. cbn [fold_left] in IH.
      destruct (o_mreq o) as [q|]; cbn [opt_list map fold_left mcl_step mc_ports mc_mem pset Nat.eqb pq pr] in IH |- *.
      * apply tick1 in IH. cbn [pset Nat.eqb pq pr] in IH. exact IH.
      * rewrite app_nil_r. destruct s as [m f]. apply tick1 in IH. exact IH.
Qed.

