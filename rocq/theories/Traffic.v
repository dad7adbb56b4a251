(** Specification vocabulary for hits and for the traffic between cache and
    memory.  Independent of the cache model: only line numbers, word numbers
    and message fields. *)
From Coq Require Import NArith List Bool Lia.
From Verif Require Import Bits Params Msg Mem Spec.
Import ListNotations.
Open Scope N_scope.

Section T.
Variable p : params.

(** Line number and 32-bit word number of a byte address; [nblocks] is the
    number of sets. *)
Definition line_bytes : N := p_clw p / 8.
Definition line_of (a : N) : N := a / line_bytes.
Definition word_num (a : N) : N := a / 4.

Definition rw_req (r : creq) : bool := (cq_type r =? T_READ) || (cq_type r =? T_WRITE).

(** ** True LRU.  For each set, the resident lines, most recently used first. *)
Definition lru_step (L : N -> list N) (r : creq) : (N -> list N) * N :=
  let l := line_of (cq_addr r) in
  let i := l mod nblocks p in
  if rw_req r then
    (fun j => if j =? i then firstn (N.to_nat (p_assoc p)) (l :: remove N.eq_dec l (L i)) else L j,
     if in_dec N.eq_dec l (L i) then 1 else 0)
  else if is_amo (cq_type r) then (fun j => if j =? i then remove N.eq_dec l (L i) else L j, 0)
  else if cq_type r =? T_INV then (fun _ => [], 0)
  else (L, 0).
Fixpoint lru_run (L : N -> list N) (A : list creq) : N -> list N :=
  match A with [] => L | r :: A => lru_run (fst (lru_step L r)) A end.
(** The hit flag of each request, starting with an empty cache. *)
Fixpoint lru_tests (L : N -> list N) (A : list creq) : list N :=
  match A with [] => [] | r :: A => snd (lru_step L r) :: lru_tests (fst (lru_step L r)) A end.
Definition lru_empty : N -> list N := fun _ => [].

(** ** Pending words: written by the processor and not yet written back. *)
Definition is_write (q : mreq) : bool := mq_type q =? T_WRITE.
(** word [k] is word [j] of the line that [q] addresses *)
Definition in_req (q : mreq) (k : N) : bool :=
  (word_num (mq_addr q) <=? k) && (k <? word_num (mq_addr q) + p_clw p / 32).
Definition clear (P : N -> bool) (q : mreq) : N -> bool := fun k => P k && negb (in_req q k).
Definition clears (P : N -> bool) (qs : list mreq) : N -> bool := fold_left clear qs P.
Definition mark (P : N -> bool) (r : creq) : N -> bool :=
  if cq_type r =? T_WRITE
  then fun k => P k || ((word_num (cq_addr r) <=? k) && (k <=? word_num (cq_addr r + req_bytes p r - 1)))
  else P.

(** A write-back with pending words [P] and current memory contents [m] as seen by
    the program: line aligned, full line, its mask selects exactly the pending
    words of the line (at least one), and the selected bytes are up to date. *)
Record wb_ok (P : N -> bool) (m : mem) (q : mreq) : Prop := mkWb {
  wb_type : mq_type q = T_WRITE;
  wb_addr : mq_addr q mod line_bytes = 0 /\ mq_addr q < 2 ^ p_abw p;
  wb_len : mq_len q = 0;
  wb_some : mq_mask q <> 0;
  wb_mask : forall j, N.testbit (mq_mask q) j = (j <? p_clw p / 32) && P (word_num (mq_addr q) + j);
  wb_data : forall o, o < line_bytes -> N.testbit (mq_mask q) (o / 4) = true ->
              slice (mq_data q) (8 * o) (8 * o + 8) = trunc 8 (m (mq_addr q + o))
}.
Fixpoint wbs_ok (P : N -> bool) (m : mem) (qs : list mreq) : Prop :=
  match qs with [] => True | q :: qs => wb_ok P m q /\ wbs_ok (clear P q) m qs end.

(** Memory requests [g] made for request [r], when [P] is pending, [L] is
    resident and the program-visible memory is [m]. *)
Definition req_traffic (P : N -> bool) (L : N -> list N) (m : mem) (r : creq) (g : list mreq) : Prop :=
  if rw_req r then
    if in_dec N.eq_dec (line_of (cq_addr r)) (L (line_of (cq_addr r) mod nblocks p))
    then g = []
    else exists wb q, g = wb ++ [q] /\ wbs_ok P m wb /\ (length wb <= 1)%nat /\
           (forall b, In b wb -> line_of (mq_addr b) mod nblocks p = line_of (cq_addr r) mod nblocks p /\
                                 line_of (mq_addr b) <> line_of (cq_addr r)) /\
           mq_type q = T_READ /\ mq_opq q = cq_opq r /\ mq_addr q = line_bytes * line_of (cq_addr r) /\ mq_len q = 0
  else if is_amo (cq_type r) then
    exists wb q, g = wb ++ [q] /\ wbs_ok P m wb /\ (length wb <= 1)%nat /\
      (forall b, In b wb -> mq_addr b = line_bytes * line_of (cq_addr r)) /\
      (forall k, k * 4 / line_bytes = line_of (cq_addr r) -> clears P wb k = false) /\
      mq_type q = cq_type r /\ mq_opq q = cq_opq r /\ mq_addr q = cq_addr r /\ mq_len q = 4 /\
      mq_data q = trunc (p_dbw p) (cq_data r)
  else if cq_type r =? T_FLUSH then
    wbs_ok P m g /\ (forall k, k * 4 < 2 ^ p_abw p -> clears P g k = false)
  else g = [].

Definition writes (g : list mreq) : list mreq := filter is_write g.

(** Traffic of a whole history: one group of memory requests per request. *)
Fixpoint traffic (P : N -> bool) (L : N -> list N) (m : mem) (A : list creq) (G : list (list mreq)) : Prop :=
  match A, G with
  | [], [] => True
  | r :: A, g :: G => req_traffic P L m r g /\
      traffic (mark (clears P (writes g)) r) (fst (lru_step L r)) (fst (flat_exec p m r)) A G
  | _, _ => False
  end.

(** Pending words after a history with that traffic. *)
Fixpoint pend_run (P : N -> bool) (A : list creq) (G : list (list mreq)) : N -> bool :=
  match A, G with
  | r :: A, g :: G => pend_run (mark (clears P (writes g)) r) A G
  | _, _ => P
  end.

End T.
