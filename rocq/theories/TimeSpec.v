(** C54: how long a request takes.  Specification vocabulary only. *)
From Coq Require Import NArith List Bool.
From Verif Require Import Bits Params Msg Rtl Mem Spec System.
Import ListNotations.
Open Scope N_scope.

(** The number of cycles a request takes when neither side makes the cache wait,
    if [n] memory requests are made for it: the response is sent in the
    [service p r n]-th cycle after the one in which the request is accepted.
    READ, WRITE: a hit takes 2; a miss 7, and one more if a dirty line is replaced.
    AMO: 6, and one more if a dirty line is written back first.
    INV: one cycle for each line, and 3.
    FLUSH: one cycle for each line, 4 more for each dirty one, and 3. *)
Definition service (p : params) (r : creq) (n : nat) : nat :=
  let lines := N.to_nat (total_lines p) in
  if cq_type r =? T_INV then lines + 3
  else if cq_type r =? T_FLUSH then lines + 3 + 4 * n
  else match n with
       | O => 2
       | S _ => if is_amo (cq_type r) then 5 + n else 6 + n
       end%nat.

(** The most memory requests it can make. *)
Definition max_traffic (p : params) (r : creq) : nat :=
  if cq_type r =? T_INV then 0
  else if cq_type r =? T_FLUSH then N.to_nat (total_lines p) else 2%nat.

(** C60: how long a program takes.  The least number of cycles from the acceptance of a
    request to that of the next: 1, but one for each line and 2 if it is INV or FLUSH. *)
Definition busy (p : params) (r : creq) : nat := service p r 0 - 1.
Definition least_time (p : params) (R : list creq) : nat := fold_right Nat.add 0%nat (map (busy p) R).
(** The most cycles until the cache can take the next, waiting for others not counted. *)
Definition most_time (p : params) (R : list creq) : nat :=
  fold_right Nat.add 0%nat (map (fun r => service p r (max_traffic p r) + 1)%nat R).
(** INV and FLUSH: requests for which the cache goes through all its lines. *)
Definition walks (r : creq) : bool := (cq_type r =? T_INV) || (cq_type r =? T_FLUSH).
