(** * P_Wave: dense wavefunctions, circuits and Trotter evolution (examples/wavefunctions) *)
From Coq Require Import Permutation List Lia ZArith.
From Verif Require Import Prelude Algebra Tensor TensorFacts Graph GraphBase GraphOps Wave WaveSpec WaveMain WaveExp WaveTrotter.
Import ListNotations.

Section P.
  Context {R : cjr}.
  Variable iter : list nat -> list nat.
  Hypothesis iter_perm : forall l, Permutation (iter l) l.

  (** [apply_op]: from any heap, an operator whose input dimensions are those of the sites n1, n1+1, ... (modulo the number of
      sites if [pbc]) gives (op psi)(ys) = sum over vs of op(ys at these sites, vs) psi(ys with vs at these sites), with the
      sites in their order; the new dimensions of the sites are the output dimensions of the operator. *)
  Theorem C61_apply_op (s : @st R) psi op n1 pbc : wf s -> takes (window (rank psi) n1 (rank op / 2) pbc) op psi ->
    exists s' T, apply_op iter psi op n1 pbc s = (s', Some T) /\ wf s' /\ teq T (act (window (rank psi) n1 (rank op / 2) pbc) op psi).
  Proof. exact (@apply_op_ok R iter iter_perm s psi op n1 pbc). Qed.

  (** [expval]: for an operator that keeps the dimensions, the scalar sum over ys of conj(psi(ys)) (op psi)(ys); this is
      [inner] of psi and of the result of [apply_op]. *)
  Theorem C61_expval (s : @st R) psi op n1 pbc : wf s -> takes (window (rank psi) n1 (rank op / 2) pbc) op psi ->
    shape (act (window (rank psi) n1 (rank op / 2) pbc) op psi) = shape psi ->
    exists s' T, expval iter psi op n1 pbc s = (s', Some T) /\ wf s' /\ shape T = [] /\
      elt T [] = lsum (idxs (shape psi)) (fun ys => rmul (cj (elt psi ys)) (elt (act (window (rank psi) n1 (rank op / 2) pbc) op psi) ys)) /\
      forall T', snd (apply_op iter psi op n1 pbc s) = Some T' -> elt T [] = inner psi T'.
  Proof.
    intros W Ht Hs. destruct (@expval_ok R iter iter_perm s psi op n1 pbc W Ht Hs) as (s' & T & E & W' & S & V).
    exists s', T. split; [exact E|]. split; [exact W'|]. split; [exact S|]. split; [exact V|]. intros T' E'.
    destruct (@apply_op_ok R iter iter_perm s psi op n1 pbc W Ht) as (s2 & T2 & E2 & _ & [Q1 Q2]). rewrite E2 in E'. cbn [snd] in E'. injection E' as <-.
    rewrite V. apply lsum_ext. intros ys Hy. rewrite Q2; [reflexivity|]. rewrite Q1, Hs. apply In_idxs, Hy.
  Qed.

  (** without [pbc] an operator that reaches past the last site raises *)
  Theorem C61_outside (s : @st R) psi op n1 : wf s -> rank psi < n1 + rank op / 2 -> 0 < rank op / 2 ->
    snd (apply_op iter psi op n1 false s) = None /\ snd (expval iter psi op n1 false s) = None.
  Proof. exact (@out_fails R iter s psi op n1). Qed.

  (** [apply_circuit]: the gates of the layers are applied one after the other, from the first layer to the last *)
  Theorem C61_circuit (s : @st R) psi layers : wf s -> (forall gates, In gates layers -> apart (rank psi) gates) ->
    runs_ok (flat_map (placed (rank psi)) layers) psi ->
    exists s' T, apply_circuit iter psi layers s = (s', Some T) /\ wf s' /\ teq T (run (flat_map (placed (rank psi)) layers) psi).
  Proof. exact (@apply_circuit_ok R iter iter_perm s psi layers). Qed.

  (** a layer in which a gate begins at a site that an earlier gate covers raises *)
  Theorem C61_overlap (s : @st R) psi layers gates : In gates layers -> ~ apart (rank psi) gates -> snd (apply_circuit iter psi layers s) = None.
  Proof. exact (@overlap_fails R iter s psi layers gates). Qed.

  (** [trotter_prepare_gates] accepts exactly the non-empty lists of num_sites - 1 terms with four axes.  The layers are the
      gates with even numbers at their sites, then those with odd numbers. *)
  Theorem C61_prepare expm iu ng (H : list (tensor R)) dt N eu : 
    (trotter_prepare_gates expm iu ng H dt N eu = None <-> ~ (S (length H) = N /\ H <> [] /\ forall h, In h H -> rank h = 4)) /\
    forall layers, trotter_prepare_gates expm iu ng H dt N eu = Some layers -> exists G even odd,
      layers = [even; odd] /\ G = map (trotter_gate expm (if eu then ng dt else rmul iu dt)) H /\ placed N even = half false G /\ placed N odd = half true G /\
      length even = N /\ length odd = N /\ apart N even /\ apart N odd.
  Proof.
    split.
    - destruct (trotter_prepare_gates expm iu ng H dt N eu) as [l|] eqn:E.
      + apply prepare_some in E. split; [discriminate|]. intros K. exfalso. apply K. tauto.
      + split; [|reflexivity]. intros _ (K1 & K2 & K3). rewrite (proj2 (@prepare_some R expm iu ng H dt N eu _) (conj K1 (conj K2 (conj K3 eq_refl)))) in E. discriminate.
    - intros layers E. apply prepare_some in E. destruct E as (K1 & _ & K3 & ->).
      assert (forall g, In g (map (trotter_gate expm (trotter_factor iu ng dt eu)) H) -> rank g = 4) as H4.
      { intros g Hg. apply in_map_iff in Hg. destruct Hg as (h & <- & Hh). apply (K3 h Hh). }
      eexists _, _, _. split; [reflexivity|]. split; [reflexivity|]. rewrite !placed_half by (rewrite map_length; exact K1).
      split; [reflexivity|]. split; [reflexivity|]. unfold trotter_layer at 1 2. rewrite !map_length, seq_length. split; [reflexivity|]. split; [reflexivity|]. split; apply layer_apart; exact H4.
  Qed.

  (** a gate is the exponential of the matrix c h, whose rows and columns are pairs of indices, read back as a tensor *)
  Theorem C61_gate (expm : tensor R -> tensor R) c h : rank h = 4 -> (forall m m', teq m m' -> teq (expm m) (expm m')) -> (forall m, shape (expm m) = shape m) ->
    shape (trotter_gate expm c h) = shape h /\ forall i j k l, valid [i; j; k; l] (shape h) ->
      elt (trotter_gate expm c h) [i; j; k; l] = elt (expm (term_matrix c h)) [i * nth 1 (shape h) 0 + j; k * nth 3 (shape h) 0 + l].
  Proof. intros H4 He Hs. split; [reflexivity|]. exact (@gate_entries R expm c h H4 He Hs). Qed.

  (** [evolve_trotter]: for terms on neighbouring sites with the dimensions of psi, every step applies the gates with even
      numbers, then those with odd numbers, and divides by the norm if the evolution is euclidean; the returned time is the
      sum of the steps. *)
  Theorem C61_evolve expm iu ng norm dv (s : @st R) psi H dt k eu : wf s -> H <> [] -> chain H psi ->
    exists s' T, evolve_trotter iter expm iu ng norm dv psi H dt k eu s = (s', Some (T, lsum (repeat tt k) (fun _ => dt))) /\ wf s' /\
      teq T (steps (fun p => if eu then Tensor (shape p) (fun ys => dv (elt p ys) (norm (to_list p))) else p)
                   (map (trotter_gate expm (if eu then ng dt else rmul iu dt)) H) k psi).
  Proof. exact (@evolve_trotter_ok R iter iter_perm norm dv expm iu ng s psi H dt k eu). Qed.
End P.
Print Assumptions C61_apply_op.
Print Assumptions C61_expval.
Print Assumptions C61_outside.
Print Assumptions C61_circuit.
Print Assumptions C61_overlap.
Print Assumptions C61_prepare.
Print Assumptions C61_gate.
Print Assumptions C61_evolve.

Definition wave : tensor Z_cjr := Tensor [2; 3; 2] (fun ix => Z.of_nat (1 + ravel [2; 3; 2] ix) : Z_cjr).
Definition pair_op : tensor Z_cjr := Tensor [2; 2; 2; 2] (fun ix => Z.sub (Z.of_nat (ravel [2; 2; 2; 2] ix)) 7 : Z_cjr).
(** an operator on the last and the first site, with periodic boundary conditions *)
Example C61_apply_op_ex : wf (@empty_st Z_cjr) /\ takes (window 3 2 2 true) pair_op wave /\ window 3 2 2 true = [2; 0] /\ shape (act [2; 0] pair_op wave) = shape wave /\
  option_map (@to_list _) (snd (apply_op (fun l => l) wave pair_op 2 true empty_st)) = Some (to_list (act [2; 0] pair_op wave)) /\
  option_map (@to_list _) (snd (expval (fun l => l) wave pair_op 2 true empty_st)) = Some [inner wave (act [2; 0] pair_op wave)] /\
  inner wave (act [2; 0] pair_op wave) = 4198%Z.
Proof.
  split; [apply empty_wf|]. split; [|split; [|split; [|split; [|split]]]]; try (vm_compute; reflexivity).
  split; [repeat constructor; cbn; intuition discriminate|]. split; [intros t Ht; vm_compute in Ht; destruct Ht as [<-|[<-|[]]]; vm_compute; auto|]. split; [vm_compute; auto|]. split; reflexivity.
Qed.
(** the same operator past the last site *)
Example C61_outside_ex : rank wave < 2 + rank pair_op / 2 /\ 0 < rank pair_op / 2.
Proof. vm_compute. auto. Qed.
Definition three : tensor Z_cjr := Tensor [2; 2; 2] (fun ix => Z.sub (Z.of_nat (ravel [2; 2; 2] ix)) 2 : Z_cjr).
(** two layers; the second has gates on the first and on the last site *)
Definition one_op : tensor Z_cjr := Tensor [2; 2] (fun ix => Z.of_nat (ravel [2; 2] ix) : Z_cjr).
Definition layers3 : list (list (option (tensor Z_cjr))) := [[None; Some pair_op; None]; [Some one_op; None; Some one_op]].
Lemma takes_dec ts (op psi : tensor Z_cjr) : NoDup ts -> forallb (fun t => t <? rank psi) ts = true -> (0 <? length ts) = true -> rank op = length ts + length ts ->
  skipn (length ts) (shape op) = map (fun t => nth t (shape psi) 0) ts -> takes ts op psi.
Proof. intros H1 H2 H3 H4 H5. split; [exact H1|]. split; [intros t Ht; apply Nat.ltb_lt; apply (proj1 (forallb_forall _ _) H2 t Ht)|]. split; [apply Nat.ltb_lt; exact H3|auto]. Qed.
Example C61_circuit_ex : (forall gates, In gates layers3 -> apart (rank three) gates) /\ runs_ok (flat_map (placed (rank three)) layers3) three /\
  option_map (@to_list _) (snd (apply_circuit (fun l => l) three layers3 empty_st)) = Some (to_list (run [(1, pair_op); (0, one_op); (2, one_op)] three)).
Proof.
  split; [|split].
  - intros gates [<-|[<-|[]]] n n' g g' H1 H2 Hn; change (rank three) with 3 in Hn;
      destruct n as [|[|[|n]]]; try lia; try discriminate; destruct n' as [|[|[|n']]]; try lia; try discriminate; injection H1 as <-; vm_compute; auto.
  - cbn [runs_ok]. split; [|split; [|split; [|exact I]]]; (apply takes_dec; [repeat constructor; cbn; intuition discriminate|vm_compute; reflexivity..]).
  - vm_compute. reflexivity.
Qed.
Example C61_overlap_ex : ~ apart (rank three) [Some pair_op; Some one_op; None].
Proof. intros H. specialize (H 0 1 pair_op one_op eq_refl eq_refl ltac:(vm_compute; auto)). vm_compute in H. lia. Qed.
(** a matrix function that keeps shapes: 1 + X *)
Definition first_order (X : tensor Z_cjr) : tensor Z_cjr := Tensor (shape X) (fun ix => Z.add (if nth 0 ix 0 =? nth 1 ix 0 then 1%Z else 0%Z) (elt X ix) : Z_cjr).
Example C61_gate_ex : rank pair_op = 4 /\ (forall m m', teq m m' -> teq (first_order m) (first_order m')) /\ (forall m, shape (first_order m) = shape m) /\
  to_list (term_matrix (R := Z_cjr) 2%Z pair_op) = map (fun z => 2 * (z - 7))%Z [0; 1; 2; 3; 4; 5; 6; 7; 8; 9; 10; 11; 12; 13; 14; 15]%Z.
Proof.
  split; [reflexivity|]. split; [|split; [reflexivity|vm_compute; reflexivity]]. intros m m' [H1 H2]. split; [exact H1|]. intros ix Hx. cbn in *. rewrite H2 by exact Hx. reflexivity.
Qed.
(** two steps on three sites *)
Example C61_evolve_ex : chain [pair_op; pair_op] three /\
  (let r := snd (evolve_trotter (R := Z_cjr) (fun l => l) first_order 1%Z Z.opp (fun l => Z.of_nat (length l)) Z.div three [pair_op; pair_op] 3%Z 2 true empty_st) in
   match r with Some (T, t) => t = 6%Z /\ shape T = [2; 2; 2] /\ to_list T <> to_list three | None => False end) /\
  trotter_prepare_gates (R := Z_cjr) first_order 1%Z Z.opp [] 3%Z 1 false = None.
Proof.
  split; [split; [reflexivity|]|split].
  - intros [|[|[|n]]] g H; cbn in H; try discriminate; injection H as <-; reflexivity.
  - vm_compute. split; [reflexivity|]. split; [reflexivity|discriminate].
  - reflexivity.
Qed.
