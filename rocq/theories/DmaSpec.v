(** C74: a device that reads and writes memory behind the caches.  Specification vocabulary only. *)
From Coq Require Import Arith NArith List Bool.
From Verif Require Import Bits Params Msg Rtl Mem Spec System Traffic MultiSys Hide DynSpec.
Import ListNotations.
Open Scope N_scope.

(** The device reads byte [a] and finds [x], or writes [v] to it.  (Whoever moves more bytes
    does it one after the other.) *)
Inductive dev_op := DRead (a x : N) | DWrite (a v : N).
(** What happens: a clock cycle of all caches, or an access of the device, between two cycles. *)
Inductive hev := HC (t : cyc) | HD (d : dev_op).
Definition cycles (h : list hev) : list cyc := flat_map (fun e => match e with HC t => [t] | HD _ => [] end) h.
Definition set_byte (m : mem) (a v : N) : mem := fun b => if b =? a then v else m b.

(** The memory of [mmem] (MultiSys.v; test/MemoryCL.py 60-104) with one more party, the device, that
    accesses it directly (as a test does through read_mem and write_mem, MemoryCL.py 24-28). *)
Inductive dmem (p : params) (n : nat) (m0 : mem) : list hev -> mem -> (nat -> list mreq) -> (nat -> list mresp) -> Prop :=
| dm_start : dmem p n m0 [] m0 no_reqs no_resps
| dm_exec : forall h m rq rs i q l, dmem p n m0 h m rq rs -> (i < n)%nat -> rq i = q :: l ->
    dmem p n m0 h (fst (mem_exec p m q)) (setq rq i l) (setq rs i (rs i ++ [snd (mem_exec p m q)]))
| dm_cycle : forall h m rq rs t, dmem p n m0 h m rq rs ->
    (forall i, (i < n)%nat -> i_mresp_en (fst (t i)) = true -> exists l, rs i = i_mresp (fst (t i)) :: l) ->
    dmem p n m0 (h ++ [HC t]) m (fun i => rq i ++ opt_list (o_mreq (snd (t i))))
      (fun i => if i_mresp_en (fst (t i)) then List.tl (rs i) else rs i)
| dm_read : forall h m rq rs a, dmem p n m0 h m rq rs -> dmem p n m0 (h ++ [HD (DRead a (trunc 8 (m a)))]) m rq rs
| dm_write : forall h m rq rs a v, dmem p n m0 h m rq rs -> dmem p n m0 (h ++ [HD (DWrite a v)]) (set_byte m a v) rq rs.

(** One memory for all: the requests of the caches in the order of their acceptance, and the
    accesses of the device, take effect one after the other. *)
Definition hstep (p : params) (n : nat) (V : mem) (e : hev) : mem :=
  match e with
  | HC t => flat_mem p V (cyc_reqs n t)
  | HD (DWrite a v) => set_byte V a v
  | HD (DRead _ _) => V
  end.
Definition shared (p : params) (n : nat) (m0 : mem) (h : list hev) : mem := fold_left (hstep p n) h m0.

(** The device writes word [k] only while no cache may touch it ([may], see [synced]), and reads
    it only while no cache may modify it. *)
Record dev_synced (n : nat) (k : N) (may own : nat -> nat -> bool) (h : list hev) : Prop := {
  dv_write : forall h1 a v h2, h = h1 ++ HD (DWrite a v) :: h2 -> word_num a = k ->
    forall i, (i < n)%nat -> may (length (cycles h1)) i = false;
  dv_read : forall h1 a x h2, h = h1 ++ HD (DRead a x) :: h2 -> word_num a = k ->
    forall i, (i < n)%nat -> own (length (cycles h1)) i = false }.
