(** Specification vocabulary, independent of the cache: what a request means on
    a flat byte memory, and which requests are supported. *)
From Coq Require Import NArith List Bool Lia.
From Verif Require Import Bits Params Msg Mem.
Import ListNotations.
Open Scope N_scope.

(** Number of bytes a READ or WRITE touches: [len], where 0 means the full data
    width, and a WRITE with len=3 is a double word (arithmetics.py 41-48). *)
Definition req_bytes (p : params) (r : creq) : N :=
  if (cq_type r =? T_WRITE) && (cq_len r =? 3) then 8
  else if cq_len r =? 0 then p_dbw p / 8 else cq_len r.

(** One request on a flat byte memory: new memory and response data. *)
Definition flat_exec (p : params) (m : mem) (r : creq) : mem * N :=
  if cq_type r =? T_READ then
    (m, rd_bytes m (cq_addr r) (N.to_nat (req_bytes p r)))
  else if cq_type r =? T_WRITE then
    (wr_bytes m (cq_addr r) (N.to_nat (req_bytes p r)) (trunc (p_dbw p) (cq_data r)), 0)
  else if is_amo (cq_type r) then
    let old := rd_bytes m (cq_addr r) 4 in
    (wr_bytes m (cq_addr r) 4 (amo_fun (cq_type r) old (trunc 32 (cq_data r))), old)
  else (m, 0).

Section Flat.
Variable p : params.
Fixpoint flat_mem (m : mem) (rs : list creq) : mem :=
  match rs with [] => m | r :: rs => flat_mem (fst (flat_exec p m r)) rs end.
(** Response data of each request, in order. *)
Fixpoint flat_data (m : mem) (rs : list creq) : list N :=
  match rs with
  | [] => []
  | r :: rs => snd (flat_exec p m r) :: flat_data (fst (flat_exec p m r)) rs
  end.
End Flat.

Definition pow2_size (n : N) : Prop := n = 1 \/ n = 2 \/ n = 4 \/ n = 8 \/ n = 16.

(** Supported requests.  READ of 1, 2, 4, .. bytes up to the data width,
    naturally aligned; WRITE of at most one 32-bit word, naturally aligned, or
    the len=3 double word; word-aligned 32-bit AMOs; INV; FLUSH. *)
Definition wf_read (p : params) (r : creq) : Prop :=
  cq_type r = T_READ /\ pow2_size (req_bytes p r) /\ cq_addr r mod req_bytes p r = 0.
Definition wf_write (p : params) (r : creq) : Prop :=
  cq_type r = T_WRITE /\ cq_addr r mod req_bytes p r = 0 /\
  (req_bytes p r = 1 \/ req_bytes p r = 2 \/ req_bytes p r = 4 \/ (cq_len r = 3 /\ p_dbw p = 32)).
Definition wf_amo (p : params) (r : creq) : Prop :=
  T_AMO_ADD <= cq_type r <= T_AMO_XOR /\ cq_addr r mod 4 = 0 /\ (p_dbw p = 32 \/ cq_len r = 4).
Definition wf_req (p : params) (r : creq) : Prop :=
  cq_addr r < 2 ^ p_abw p /\ cq_len r < 2 ^ lenw p /\
  (wf_read p r \/ wf_write p r \/ wf_amo p r \/ cq_type r = T_INV \/ cq_type r = T_FLUSH).
