(** Specification vocabulary of C68. *)
From Coq Require Import NArith.
From Verif Require Import Bits Params Msg Rtl Mem Spec System Traffic.
Open Scope N_scope.

(** Two memories agree on the bytes of line [l] whose words belong to cache [i]. *)
Definition same_own (p : params) (owner : N -> option nat) (i : nat) (l : N) (m m' : mem) : Prop :=
  forall a, a < 2 ^ p_abw p -> line_of p a = l -> owner (word_num a) = Some i -> trunc 8 (m a) = trunc 8 (m' a).
