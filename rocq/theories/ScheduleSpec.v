(** C62: the schedule of a program, cycle by cycle.  Specification vocabulary only. *)
From Coq Require Import NArith List Bool.
From Verif Require Import Bits Params Msg Rtl Mem Spec System Traffic TimeSpec ExactSpec.
Import ListNotations.
Open Scope N_scope.

Section S.
Variable p : params.

(** The 32-bit words of an access. *)
Definition words_of (r : creq) : list N :=
  map (N.add (word_num (cq_addr r))) (range (word_num (cq_addr r + req_bytes p r - 1) - word_num (cq_addr r) + 1)).
(** A WRITE to a word that is not pending yet. *)
Definition first_write (x : xst) (r : creq) : bool :=
  (cq_type r =? T_WRITE) && negb (forallb (x_pend x) (words_of r)).
(** The number of memory requests made for [r] if the bookkeeping of C61 has reached [x]. *)
Definition made (x : xst) (r : creq) : nat := length (fst (x_step p x r)).
(** The number of cycles from the acceptance of [r] to the first cycle in which the cache can
    take another request: one less than the service time; but 2 for a WRITE that hits and
    is the first to some of its words. *)
Definition gap (x : xst) (r : creq) : nat :=
  match made x r with
  | O => if first_write x r then 2%nat else (service p r 0 - 1)%nat
  | n => (service p r n - 1)%nat
  end.

(** Cycles (counted from 0 after reset) in which the requests of a program are accepted, the first in cycle [t] ... *)
Fixpoint starts_from (t : nat) (x : xst) (R : list creq) : list nat :=
  match R with [] => [] | r :: R => t :: starts_from (t + gap x r) (snd (x_step p x r)) R end.
(** ... answered ... *)
Fixpoint ends_from (t : nat) (x : xst) (R : list creq) : list nat :=
  match R with [] => [] | r :: R => (t + service p r (made x r))%nat :: ends_from (t + gap x r) (snd (x_step p x r)) R end.
(** ... and in which the cache can take one more. *)
Fixpoint next_from (t : nat) (x : xst) (R : list creq) : nat :=
  match R with [] => t | r :: R => next_from (t + gap x r) (snd (x_step p x r)) R end.
(** The first is accepted when all lines have been cleared. *)
Definition starts (R : list creq) : list nat := starts_from (N.to_nat (total_lines p)) x_empty R.
Definition ends (R : list creq) : list nat := ends_from (N.to_nat (total_lines p)) x_empty R.
Definition next_start (R : list creq) : nat := next_from (N.to_nat (total_lines p)) x_empty R.
End S.

(** What happened: the cycles of a trace in which a request is accepted, a response sent. *)
Fixpoint cycles_where (f : inp * outp -> bool) (t : nat) (tr : trace) : list nat :=
  match tr with [] => [] | io :: tr => (if f io then [t] else []) ++ cycles_where f (S t) tr end.
Definition accept_cycles (tr : trace) : list nat := cycles_where (fun io => i_req_en (fst io)) 0 tr.
Definition answer_cycles (tr : trace) : list nat := cycles_where (fun io => match o_resp (snd io) with Some _ => true | None => false end) 0 tr.

(** Nobody makes the cache wait: the client takes responses and the memory takes requests in every
    cycle; the memory answers the oldest outstanding request; the client, with
    [total] requests to make, sends the next one whenever the cache is ready. *)
Fixpoint no_waiting (total : nat) (tr0 tr : trace) : bool :=
  match tr with
  | [] => true
  | io :: tr =>
      productive tr0 (fst io) &&
      implb (o_req_rdy (snd io)) (i_req_en (fst io) || Nat.leb total (length (accepted tr0))) &&
      no_waiting total (tr0 ++ [io]) tr
  end.
