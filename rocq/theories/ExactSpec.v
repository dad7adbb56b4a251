(** C61: the exact traffic of a program.  Specification vocabulary: bookkeeping over
    line numbers that a user can do by hand; nothing of the cache model. *)
From Coq Require Import NArith List Bool.
From Verif Require Import Bits Params Msg Traffic.
Import ListNotations.
Open Scope N_scope.

(** What is predicted of a memory request: type, address, length and, of a WRITE, the mask
    (one bit per 32-bit word).  The data of write-backs is the subject of C12; the opaque
    field of a flush write-back is not predictable (DESIGN.md). *)
Record shape := mkShape { sh_type : N; sh_addr : N; sh_len : N; sh_mask : N }.
Definition shape_of (q : mreq) : shape :=
  mkShape (mq_type q) (mq_addr q) (mq_len q) (if mq_type q =? T_WRITE then mq_mask q else 0).

(** What it depends on: type, address and length of a request. *)
Definition addr_of (r : creq) : N * N * N := (cq_type r, cq_addr r, cq_len r).

Section X.
Variable p : params.

(** 32-bit words of a line *)
Definition words : N := p_clw p / 32.
(** The words of line [l] that are pending (written and not written back), as a mask. *)
Definition pend_mask (P : N -> bool) (l : N) : N :=
  fold_right N.lor 0 (map (fun j => if P (words * l + j) then 2 ^ j else 0) (range words)).
Definition unpend (P : N -> bool) (l : N) : N -> bool := fun k => P k && negb (k / words =? l).
(** The write-back of a line: none if no word of it is pending. *)
Definition wb (P : N -> bool) (l : N) : list shape :=
  if pend_mask P l =? 0 then [] else [mkShape T_WRITE (line_bytes p * l) 0 (pend_mask P l)].

(** The state: the pending words; for each set and way the line there, and whether it may be
    used ([false]: it was invalidated, but has words that are still to be written back);
    for each set the way to use next. *)
Record xst := mkX { x_pend : N -> bool; x_slot : N -> N -> option (N * bool); x_next : N -> N }.
Definition x_empty : xst := mkX (fun _ => false) (fun _ _ => None) (fun _ => 0).

Definition put (S : N -> N -> option (N * bool)) (i w : N) (v : option (N * bool)) : N -> N -> option (N * bool) :=
  fun i' w' => if (i' =? i) && (w' =? w) then v else S i' w'.
Definition put1 (f : N -> N) (i v : N) : N -> N := fun i' => if i' =? i then v else f i'.
(** the way of the line, if any *)
Definition x_way (x : xst) (l : N) : option N :=
  find (fun w => match x_slot x (l mod nblocks p) w with Some (l', _) => l' =? l | None => false end) (range (p_assoc p)).
(** the other way of two; of one way, that way *)
Definition other (w : N) : N := if p_assoc p =? 2 then 1 - w else 0.

(** A READ or WRITE of line [l]. *)
Definition x_rw (x : xst) (l : N) : list shape * xst :=
  let i := l mod nblocks p in
  let read := mkShape T_READ (line_bytes p * l) 0 0 in
  let enter P w := mkX P (put (x_slot x) i w (Some (l, true))) (put1 (x_next x) i (other w)) in
  match x_way x l with
  | Some w => (match x_slot x i w with Some (_, true) => [] | _ => [read] end, enter (x_pend x) w)
  | None =>
      let w := x_next x i in
      match x_slot x i w with
      | Some (v, _) => (wb (x_pend x) v ++ [read], enter (unpend (x_pend x) v) w)
      | None => ([read], enter (x_pend x) w)
      end
  end.
(** An AMO on line [l]; [q] is the request itself. *)
Definition x_amo (x : xst) (l : N) (q : shape) : list shape * xst :=
  let i := l mod nblocks p in
  match x_way x l with
  | Some w => (wb (x_pend x) l ++ [q],
               mkX (unpend (x_pend x) l) (put (x_slot x) i w None) (put1 (x_next x) i w))
  | None => ([q], x)
  end.
(** INV: lines with pending words stay, not to be used. *)
Definition x_inv (x : xst) : xst :=
  mkX (x_pend x)
    (fun i w => match x_slot x i w with
                | Some (l, _) => if pend_mask (x_pend x) l =? 0 then None else Some (l, false)
                | None => None end) (x_next x).
(** FLUSH: all sets from the last to the first, in each the last way first. *)
Definition x_flush (x : xst) : list shape * xst :=
  (flat_map (fun k => match x_slot x (k / p_assoc p) (k mod p_assoc p) with
                      | Some (l, _) => wb (x_pend x) l | None => [] end) (rev (range (p_assoc p * nblocks p))),
   mkX (fun _ => false)
    (fun i w => match x_slot x i w with Some (l, true) => Some (l, true) | _ => None end) (x_next x)).

(** One request: the memory requests made for it, and the new state. *)
Definition x_step (x : xst) (r : creq) : list shape * xst :=
  let l := line_of p (cq_addr r) in
  if cq_type r =? T_INV then ([], x_inv x)
  else if cq_type r =? T_FLUSH then x_flush x
  else if is_amo (cq_type r) then x_amo x l (mkShape (cq_type r) (cq_addr r) 4 0)
  else let (g, x') := x_rw x l in (g, mkX (mark p (x_pend x') r) (x_slot x') (x_next x')).

(** A program: one group of memory requests for each of its requests. *)
Fixpoint x_run (x : xst) (R : list creq) : list (list shape) :=
  match R with [] => [] | r :: R => fst (x_step x r) :: x_run (snd (x_step x r)) R end.
Fixpoint x_after (x : xst) (R : list creq) : xst :=
  match R with [] => x | r :: R => x_after (snd (x_step x r)) R end.
Definition predict (R : list creq) : list (list shape) := x_run x_empty R.
End X.
