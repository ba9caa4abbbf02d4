(** * P_Fft: the fast Fourier transform network (property C59) *)
From Coq Require Import List Lia ZArith Reals Lra.
From Verif Require Import Prelude Algebra Tensor TensorFacts Einsum EinsumFacts Graph GraphBase GraphContract GraphOps GraphValue GraphQuery GraphQueryFacts GraphCopyFacts GraphDensity Quantum QuantumSpec Krylov KrylovInst Stitch Fft FftSpec FftMain.
Import ListNotations.
Set Implicit Arguments.
Unset Strict Implicit.

(** Over every commutative ring with a factor [h] and a tower of square roots [ph] of -1: on distinct binary loose ends of a
    network [add_fft] adds new nodes to the network, and the vector on the ends that it returns is the discrete Fourier
    transform of the vector on the inputs.  All other loose ends stay. *)
Theorem C59_fft (R : cjr) (h : R) (ph : nat -> R) (s : @st R) (ns : list nid) (inputs : list eid) :
  radd r1 (ph 0) = r0 -> (forall p, S p < length inputs -> rmul (ph (S p)) (ph (S p)) = ph p) ->
  wf s -> live s ns -> qubits s ns inputs ->
  exists s' new out, add_fft h ph inputs s = (s', Some out) /\ wf s' /\ live s' (ns ++ new) /\ (forall m, In m new -> ~ is_node s m) /\
    length out = length inputs /\ qubits s' (ns ++ new) out /\
    (forall x, loose s ns x -> ~ In x inputs -> loose s' (ns ++ new) x /\ edim s' x = edim s x) /\
    forall a Y, Y < 2 ^ length inputs ->
      vector s' (ns ++ new) a out Y = dft (length inputs) h (ph (length inputs - 1)) (vector s ns a inputs) Y.
Proof. intros H1 H2 W L Q. exact (add_fft_ok h W L Q H1 H2). Qed.
Print Assumptions C59_fft.

(** An input that is not dangling raises before anything is changed. *)
Theorem C59_rejects (R : cjr) (h : R) (ph : nat -> R) (s : @st R) (inputs : list eid) e ed :
  In e inputs -> s_edges s e = Some ed -> e_2 ed <> None -> add_fft h ph inputs s = (s, None).
Proof.
  intros He H1 H2. unfold add_fft, bind. assert (all_dangling inputs s = (s, None)) as ->; [|reflexivity].
  induction inputs as [|x l IH]; [destruct He|]. cbn [all_dangling]. unfold bind at 1, get_edge.
  destruct (s_edges s x) as [d|] eqn:E; [|reflexivity]. destruct (e_dis d); [reflexivity|].
  unfold bind, guard. destruct (is_dangling d) eqn:D; [|reflexivity]. cbn [ret]. destruct He as [->|He]; [|apply IH, He].
  exfalso. rewrite H1 in E. injection E as <-. unfold is_dangling in D. destruct (e_2 ed); [discriminate|congruence].
Qed.
Print Assumptions C59_rejects.

(** ** with the complex numbers of the source *)
Definition C_cjr : cjr := cplx_cjr R_cfd.
Open Scope R_scope.
(** exp(-i t) *)
Definition cis (t : R) : C_cjr := (cos t, - sin t).
(** exp(-i pi / 2^p) and 1/sqrt(2) *)
Definition phase (p : nat) : C_cjr := cis (PI / 2 ^ p).
Definition inv_sqrt2 : C_cjr := (/ sqrt 2, 0).

Lemma cis_mul s t : rmul (cis s) (cis t) = cis (s + t).
Proof. unfold cis. rewrite cos_plus, sin_plus. cbn. unfold xmul. cbn. f_equal; ring. Qed.
Lemma cis_pow t k : rpow (cis t) k = cis (INR k * t).
Proof.
  induction k as [|k IH]; [cbn [rpow]; unfold cis; cbn [INR]; rewrite Rmult_0_l, cos_0, sin_0; cbn; f_equal; ring|].
  cbn [rpow]. rewrite IH, cis_mul, S_INR. f_equal. ring.
Qed.
Lemma inv_sqrt2_pow n : rpow inv_sqrt2 n = ((/ sqrt 2) ^ n, 0) :> C_cjr.
Proof. induction n as [|n IH]; [reflexivity|]. cbn [rpow]. rewrite IH. unfold inv_sqrt2. cbn. unfold xmul. cbn. f_equal; ring. Qed.
Lemma phase_minus_one : radd r1 (phase 0) = r0 :> C_cjr.
Proof. unfold phase, cis. cbn [pow]. replace (PI / 1) with PI by field. rewrite cos_PI, sin_PI. cbn. unfold xadd. cbn. f_equal; ring. Qed.
Lemma phase_root p : rmul (phase (S p)) (phase (S p)) = phase p.
Proof. unfold phase. rewrite cis_mul. f_equal. cbn [pow]. field. apply pow_nonzero. lra. Qed.

(** [add_fft] with exp(-i pi / 2^p) and 1/sqrt(2): the unitary transform with exp(-2 pi i X Y / 2^n) / sqrt(2)^n *)
Theorem C59_fft_complex (s : @st C_cjr) (ns : list nid) (inputs : list eid) :
  wf s -> live s ns -> qubits s ns inputs ->
  exists s' new out, add_fft inv_sqrt2 phase inputs s = (s', Some out) /\ wf s' /\ live s' (ns ++ new) /\
    length out = length inputs /\ qubits s' (ns ++ new) out /\
    forall a Y, (Y < 2 ^ length inputs)%nat ->
      vector s' (ns ++ new) a out Y =
      rmul (((/ sqrt 2) ^ length inputs, 0) : C_cjr)
        (nsum (2 ^ length inputs) (fun X => rmul (cis (2 * PI * INR X * INR Y / 2 ^ length inputs)) (vector s ns a inputs X))).
Proof.
  intros W L Q. destruct (C59_fft inv_sqrt2 phase_minus_one (fun p _ => phase_root p) W L Q) as (s' & new & out & H & W' & L' & _ & Hl & Q' & _ & V).
  exists s', new, out. do 5 (split; [assumption|]). intros a Y HY. rewrite (V a Y HY). unfold dft. rewrite inv_sqrt2_pow. f_equal.
  destruct (length inputs) as [|n].
  - cbn in HY. assert (Y = 0%nat) as -> by lia. apply nsum_ext. intros X HX. cbn in HX. assert (X = 0%nat) as -> by lia. f_equal.
    cbn [Nat.mul rpow]. unfold cis. replace (2 * PI * INR 0 * INR 0 / 2 ^ 0) with 0 by (cbn; field). rewrite cos_0, sin_0. cbn. f_equal. ring.
  - apply nsum_ext. intros X _. f_equal. unfold phase. rewrite cis_pow. f_equal. replace (S n - 1)%nat with n by lia. rewrite mult_INR. cbn [pow]. field. apply pow_nonzero. lra.
Qed.
Print Assumptions C59_fft_complex.

(** *** examples: the vector (1, 2, 3, 4) over the Gaussian integers, without the factor 1/sqrt(2) *)
Close Scope R_scope.
Definition ex_fft_t : tensor G_cjr := Tensor [2; 2] (fun ix => match ix return G_cjr with [a; b] => (Z.of_nat (1 + 2 * a + b), 0%Z) | _ => (0, 0)%Z end).
Definition ex_fft_s : @st G_cjr := fst (new_node ex_fft_t None empty_st).
Definition ex_ph (p : nat) : G_cjr := match p with 0 => (-1, 0)%Z | _ => (0, -1)%Z end.
Lemma ex_fft_wf : wf ex_fft_s.
Proof. apply (new_node_wf (t := ex_fft_t) (names := None) (s' := ex_fft_s) (n := 0) empty_wf). reflexivity. Qed.
Lemma ex_fft_qubits : live ex_fft_s [0] /\ qubits ex_fft_s [0] [0; 1].
Proof.
  split; [split; [repeat constructor; intros []|intros n [<-|[]]; vm_compute; discriminate]|].
  split; [repeat constructor; cbn; intuition discriminate|]. intros e [<-|[<-|[]]]; (split; [|reflexivity]).
  - exists (0, 0). repeat split. left. reflexivity.
  - exists (0, 1). repeat split. left. reflexivity.
Qed.
Example C59_ex : wf ex_fft_s /\ live ex_fft_s [0] /\ qubits ex_fft_s [0] [0; 1] /\ radd r1 (ex_ph 0) = r0 /\ rmul (ex_ph 1) (ex_ph 1) = ex_ph 0 /\
  map (vector ex_fft_s [0] (fun _ => 0) [0; 1]) (seq 0 4) = [(1, 0); (2, 0); (3, 0); (4, 0)]%Z /\
  (let (s', r) := add_fft (R := G_cjr) r1 ex_ph [0; 1] ex_fft_s in
   option_map (fun out => map (vector s' (seq 0 (s_nn s')) (fun _ => 0) out) (seq 0 4)) r = Some [(10, 0); (-2, 2); (-2, 0); (-2, -2)]%Z).
Proof. split; [apply ex_fft_wf|]. split; [apply ex_fft_qubits|]. split; [apply ex_fft_qubits|]. split; [vm_compute; reflexivity|]. split; [vm_compute; reflexivity|]. split; vm_compute; reflexivity. Qed.
(** an edge between two nodes *)
Example C59_rejects_ex : exists (s : @st G_cjr) ed, s_edges s 4 = Some ed /\ e_2 ed <> None /\ snd (add_fft (R := G_cjr) r1 ex_ph [0; 4] s) = None.
Proof.
  exists (fst (bind (new_node ex_fft_t None) (fun _ => bind (new_node ex_fft_t None) (fun _ => connect 1 2)) empty_st)).
  eexists. split; [vm_compute; reflexivity|]. split; [discriminate|vm_compute; reflexivity].
Qed.
(** the complex network with one input: the Hadamard matrix *)
Example C59_complex_ex : exists (s : @st C_cjr), wf s /\ live s [0] /\ qubits s [0] [0; 1].
Proof.
  exists (fst (new_node (Tensor [2; 2] (fun _ => r1)) None empty_st)).
  assert (wf (fst (new_node (Tensor [2; 2] (fun _ => r1 : C_cjr)) None empty_st))) as W.
  { apply (new_node_wf (t := Tensor [2; 2] (fun _ => r1 : C_cjr)) (names := None) (n := 0) empty_wf). reflexivity. }
  split; [exact W|]. split; [split; [repeat constructor; intros []|intros n [<-|[]]; cbn; discriminate]|].
  split; [repeat constructor; cbn; intuition discriminate|]. intros e [<-|[<-|[]]]; (split; [|reflexivity]).
  - exists (0, 0). repeat split. left. reflexivity.
  - exists (0, 1). repeat split. left. reflexivity.
Qed.
