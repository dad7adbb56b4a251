(** Specification vocabulary of C72: one run observed at several moments. *)
From Coq Require Import Arith NArith List.
From Verif Require Import Bits Params Msg Rtl Mem Spec System Traffic Crash MultiSys CrashMultiSpec.
Import ListNotations.
Open Scope N_scope.

(** One cache and the memory of System.v.  From state [s], memory contents [m], requests
    [rq] not executed and answers [rs] not delivered the system goes on through the stages
    [l]: each given by its inputs and the contents of memory at its end. *)
Inductive stages (p : params) : st -> mem -> list mreq -> list mresp -> list (list inp * mem) -> Prop :=
| stages_end : forall s m rq rs, stages p s m rq rs []
| stages_more : forall s m rq rs is m' rq' rs' l, mem_trace p m rq rs (trace_of p s is) m' rq' rs' ->
    stages p (fst (run p s is)) m' rq' rs' l -> stages p s m rq rs ((is, m') :: l).
(** The same for several caches over one memory (MultiSys.v). *)
Inductive mstages (p : params) (n : nat) : mem -> (nat -> list mreq) -> (nat -> list mresp) -> list (list cyc * mem) -> Prop :=
| mstages_end : forall m rq rs, mstages p n m rq rs []
| mstages_more : forall m rq rs ts m' rq' rs' l, mmem p n m rq rs ts m' rq' rs' ->
    mstages p n m' rq' rs' l -> mstages p n m rq rs ((ts, m') :: l).

(** All inputs (cycles), and those up to the end of stage [j]. *)
Definition whole {A} (l : list (list A * mem)) : list A := concat (map fst l).
Definition upto {A} (l : list (list A * mem)) (j : nat) : list A := whole (firstn (S j) l).

(** The caches' side of MultiSys.multi_run. *)
Definition own_clients (p : params) (z : nat -> N * N) (n : nat) (owner : N -> option nat) (s0 : nat -> st) (ts : list cyc) : Prop :=
  forall i, (i < n)%nat ->
     reset_state (sized p z i) (s0 i) /\
     proj i ts = trace_of (sized p z i) (s0 i) (map fst (proj i ts)) /\
     client_ok p (proj i ts) /\
     Forall (respects p owner i) (accepted (proj i ts)).

(** [K]: for each of the first [n] moments a number of requests, never decreasing. *)
Definition rising (n : nat) (K : nat -> nat) : Prop := forall j j', (j <= j' < n)%nat -> (K j <= K j')%nat.
(** [k] of the accepted requests [A] are past every durable one (Crash.v) among the first [done]. *)
Definition past_durable (p : params) (l : N) (A : list creq) (done k : nat) : Prop :=
  forall j r, (j < done)%nat -> nth_error A j = Some r -> durable p l r -> (j < k)%nat.
