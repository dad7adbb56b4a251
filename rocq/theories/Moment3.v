(** C72: concrete runs for the examples. *)
From Coq Require Import Arith NArith List Bool Lia.
From Verif Require Import Bits Params Msg Rtl Mem Spec System SysFacts Traffic Harness MomentSpec.
Import ListNotations.
Open Scope N_scope.

(** Stages of a run by [Harness.drive]: each has its own part of the program. *)
Fixpoint drives (p : params) (s : st) (m : mem) (rs : list mresp) (segs : list (list creq * list choice)) : list (list inp * mem) :=
  match segs with
  | [] => []
  | (prog, cs) :: segs =>
      let d := drive p s m rs prog cs in
      (fst d, fst (snd d)) :: drives p (fst (run p s (fst d))) (fst (snd d)) (snd (snd d)) segs
  end.
Lemma drives_ok : forall p segs s m rs, Forall (fun x => Forall (wf_req p) (fst x)) segs ->
  stages p s m [] rs (drives p s m rs segs) /\ client_ok p (trace_of p s (whole (drives p s m rs segs))).
Proof.
  intros p. induction segs as [|[prog cs] segs IH]; intros s m rs F; cbn [drives].
  - split; [constructor|]. unfold whole. cbn. constructor.
  - inversion F as [|? ? F1 F2]; subst. cbn [fst] in F1. pose proof (drive_gen (wf_req p) p cs s m rs prog F1) as D. cbv zeta in D.
    destruct D as [D1 D2]. set (d := drive p s m rs prog cs) in *.
    destruct (IH (fst (run p s (fst d))) (fst (snd d)) (snd (snd d)) F2) as [I1 I2]. split.
    + econstructor; [exact D2 | exact I1].
    + unfold whole in *. cbn [map concat fst]. rewrite trace_app. apply Forall_app. split; [exact D1 | exact I2].
Qed.
