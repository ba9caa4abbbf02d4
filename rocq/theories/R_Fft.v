(** * R_Fft: a repeated input of add_fft is not rejected *)
From Coq Require Import List Lia ZArith.
From Verif Require Import Prelude Algebra Tensor Graph GraphBase GraphContract GraphOps GraphValue GraphDensity Stitch Fft FftSpec.
Import ListNotations.
Set Implicit Arguments.
Unset Strict Implicit.

(** [add_fft] tests that its inputs are dangling, before it connects any of them (fft.py:20-21).  On an edge that is given twice
    the second connection takes the leg away from the first one: [add_fft] returns, and two nodes disagree about an edge. *)
Definition rf_t : tensor G_cjr := Tensor [2] (fun _ => r1).
Definition rf_s : @st G_cjr := fst (new_node rf_t None empty_st).
Definition rf_ph (p : nat) : G_cjr := match p with 0 => (-1, 0)%Z | _ => (0, -1)%Z end.
Definition rf_run := add_fft (r1 : G_cjr) rf_ph [0; 0] rf_s.
Theorem C59_repeated_input_refuted : exists (s s' : @st G_cjr) out, wf s /\ loose s [0] 0 /\ edim s 0 = 2 /\
  add_fft r1 rf_ph [0; 0] s = (s', Some out) /\ ~ wf s'.
Proof.
  exists rf_s, (fst rf_run), [11; 6]. split; [apply (new_node_wf (t := rf_t) (names := None) (s' := rf_s) (n := 0) empty_wf); reflexivity|].
  split; [exists (0, 0); repeat split; left; reflexivity|]. split; [reflexivity|]. split.
  { assert (snd rf_run = Some [11; 6]) as E by (vm_compute; reflexivity). rewrite <- E. apply surjective_pairing. }
  intros W.
  assert (slot (fst rf_run) (1, 0) = Some 3) as H by (vm_compute; reflexivity).
  assert (s_edges (fst rf_run) 3 = Some (Edge 0 0 (Some (1, 0)) false)) as H2 by (vm_compute; reflexivity).
  assert (slot (fst rf_run) (0, 0) <> Some 3) as H3 by (vm_compute; discriminate).
  destruct (wf_slot W H) as (ed & E & _ & _ & _ & K). rewrite H2 in E. injection E as <-.
  destruct (K (fun f => f) (0, 0)) as [K1 _]; [left; reflexivity|]. contradiction.
Qed.
Print Assumptions C59_repeated_input_refuted.
