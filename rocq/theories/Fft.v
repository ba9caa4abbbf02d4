(** * Fft: the fast Fourier transform network (examples/fft/fft.py)

    Model of [add_fft] on the heap of Graph.v.  The complex numbers of the tensors are elements of a commutative ring:
    [h] stands for 1/sqrt(2) and [ph p] for exp(-i pi / 2^p), so that [ph 0] stands for -1. *)
From Coq Require Import List.
From Verif Require Import Prelude Algebra Tensor Graph.
Import ListNotations.
Set Implicit Arguments.
Unset Strict Implicit.

Section Fft.
  Context {R : cjr}.
  Notation M := (@M R).
  Notation "x <- m ;; k" := (bind m (fun x => k)) (at level 61, m at next level, right associativity).
  Notation "m ;;; k" := (bind m (fun _ => k)) (at level 61, right associativity).
  Variables (h : R) (ph : nat -> R).

  (** fft.py:23: [[1, 1], [1, -1]] / sqrt(2) *)
  Definition hadamard : tensor R :=
    Tensor [2; 2] (fun ix => match ix with [x; y] => rmul h (if (x =? 1) && (y =? 1) then ph 0 else r1) | _ => r0 end).
  (** fft.py:25-28: the 4 by 4 unit matrix with exp(-i pi / 2^p) in its last entry, reshaped to (2, 2, 2, 2) *)
  Definition cz (p : nat) : tensor R :=
    Tensor [2; 2; 2; 2] (fun ix => match ix with
      | [a; b; c; d] => let row := 2 * a + b in let col := 2 * c + d in
          if row =? col then (if row =? 3 then ph p else r1) else r0
      | _ => r0 end).

  (** fft.py:33-38: the loop of [inline_stitch] over enumerate(targets); w is len(targets) *)
  Fixpoint stitch_loop (op : nid) (w k : nat) (targets : list nat) (state : list eid) : M (list eid) :=
    match targets with
    | [] => ret state
    | t :: ts =>
        match nth_error state t with
        | None => fail
        | Some incoming =>
            receiving <- edge_of op k ;;
            output <- edge_of op (k + w) ;;
            connect incoming receiving ;;;
            stitch_loop op w (S k) ts (replace_nth t output state)
        end
    end.
  (** fft.py:30-38 [inline_stitch] *)
  Definition inline_stitch (targets : list nat) (t : tensor R) (state : list eid) : M (list eid) :=
    op <- new_node t None ;; stitch_loop op (length targets) 0 targets state.

  (** fft.py:45-46: the loop over j *)
  Fixpoint twiddles (i : nat) (js : list nat) (state : list eid) : M (list eid) :=
    match js with
    | [] => ret state
    | j :: js' => state' <- inline_stitch [i - j; i] (cz j) state ;; twiddles i js' state'
    end.
  (** fft.py:44-47: the loop over i *)
  Fixpoint mixes (is : list nat) (state : list eid) : M (list eid) :=
    match is with
    | [] => ret state
    | i :: is' =>
        state1 <- twiddles i (seq 1 i) state ;;
        state2 <- inline_stitch [i] hadamard state1 ;;
        mixes is' state2
    end.
  (** fft.py:20-21: not all(e.is_dangling() for e in inputs) raises *)
  Fixpoint all_dangling (es : list eid) : M unit :=
    match es with
    | [] => ret tt
    | e :: es' => d <- get_edge e ;; guard (is_dangling d) ;;; all_dangling es'
    end.
  (** fft.py:8-50 [add_fft] *)
  Definition add_fft (inputs : list eid) : M (list eid) :=
    all_dangling inputs ;;;
    state <- mixes (seq 0 (length inputs)) inputs ;;
    ret (rev state).
End Fft.
