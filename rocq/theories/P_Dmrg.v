(** * P_Dmrg: C38, the environments of the density matrix renormalisation group are never stale *)
From Coq Require Import List ZArith Lia Permutation QArith Qcanon.
From Verif Require Import Prelude Res Algebra Tensor TensorFacts BlockSparse Backends BackendFacts DecompFacts Mps MpsSpec MpsState MpsExamples Dmrg DmrgSpec DmrgFacts DmrgMain DmrgRun DmrgLocal P_Mps.
Import ListNotations.
Set Implicit Arguments.
Unset Strict Implicit.
Local Open Scope nat_scope.
Local Open Scope csr_scope.

(** the state of the algorithm in which nothing stored on the side where it is read is stale *)
Definition current {R : cjr} (wl wr l r : nat) (lb rb : tensor R) (ws : list (tensor R)) (ds : list nat) (c : nat) (d : dmrg R) : Prop :=
  centre (dmps d) = Some c /\ c < length (tens (dmps d)) /\ chain l (tens (dmps d)) r /\ dmpo d = ws /\ phys (tens (dmps d)) = ds /\
  (forall n e, n <= c -> dget (lenvs d) n = Ok e -> lgood wl l lb (tens (dmps d)) ws n e) /\
  (forall n e, c <= n < length (tens (dmps d)) -> dget (renvs d) n = Ok e -> rgood wr r rb (tens (dmps d)) ws n e).
(** all left environments up to the centre and all right environments from the centre on are stored *)
Definition complete {R : cjr} (c : nat) (d : dmrg R) : Prop :=
  (forall n, n <= c -> exists e, dget (lenvs d) n = Ok e) /\ (forall n, c <= n < length (tens (dmps d)) -> exists e, dget (renvs d) n = Ok e).
(** QR, SVD and the eigensolver of the local problem *)
Definition eig_ok {R : cjr} (eigs : (tensor R -> res (tensor R)) -> tensor R -> res (R * tensor R)) : Prop :=
  forall A t e v, eigs A t = Ok (e, v) -> shape v = shape t /\ 0 < nprod (shape t).
Definition eig_total {R : cjr} (eigs : (tensor R -> res (tensor R)) -> tensor R -> res (R * tensor R)) : Prop :=
  forall A t, 0 < nprod (shape t) -> (forall x, shape x = shape t -> exists y, A x = Ok y /\ shape y = shape x) -> exists f, eigs A t = Ok f.

Section C38.
  Context {R : cjr} {E : Type}.
  Variable iter : list Z -> list Z.
  Variable qrf : tensor R -> res (tensor R * tensor R).
  Variable svdf : tensor R -> res (tensor R * list R * tensor R).
  Variable nkeep : bool -> option nat -> option E -> list R -> nat.
  Variable err_ge1 : E -> bool.
  Variable nrm : tensor R -> R.
  Variable rdiv : R -> R -> R.
  Variable eigs : (tensor R -> res (tensor R)) -> tensor R -> res (R * tensor R).
  Hypothesis iter_perm : forall l, Permutation (iter l) l.
  Hypothesis Hqr : qr_ok qrf.
  Hypothesis Hsvd : svd_ok svdf.
  Hypothesis Heig : eig_ok eigs.
  Notation execs := (execs iter qrf svdf nkeep err_ge1 nrm rdiv eigs).
  Notation run_one_site := (run_one_site iter qrf svdf nkeep err_ge1 nrm rdiv eigs).
  Notation run_two_site := (run_two_site iter qrf svdf nkeep err_ge1 nrm rdiv eigs).
  Notation compute_energy := (compute_energy iter qrf svdf nkeep err_ge1 nrm rdiv).

  Section Chain.
  Variables (wl wr l r : nat) (lb rb : tensor R) (m : mps R) (ws : list (tensor R)) (c0 : nat) (d0 : dmrg R).
  Hypothesis Slb : shape lb = [wl; l; l].
  Hypothesis Srb : shape rb = [wr; r; r].
  Hypothesis Hm : chain l (tens m) r.
  Hypothesis Hw : ochain wl ws (phys (tens m)) wr.
  Hypothesis Hc : centre m = Some c0.
  Hypothesis Hc0 : c0 < length (tens m).
  Hypothesis Hd : init_dmrg m ws lb rb = Ok d0.
  Notation current := (current wl wr l r lb rb ws (phys (tens m))).
  (** one-site updates at an end of the chain throw a triangular factor away; it is a number when the outer bond is 1 *)
  Notation ends_ok := (Forall (fun o => match o with Opt1 _ => l <= 1 /\ r <= 1 | _ => True end)).

  Lemma start : sound wl wr l r lb rb c0 d0 /\ anchored d0 /\ dmps d0 = m /\ dmpo d0 = ws.
  Proof. exact (init_sound Slb Srb Hm Hw Hc Hc0 Hd). Qed.
  Lemma current_sound c d : current c d <-> sound wl wr l r lb rb c d /\ dmpo d = ws /\ phys (tens (dmps d)) = phys (tens m).
  Proof.
    split.
    - intros (A1 & A2 & A3 & A4 & A5 & A6 & A7). split; [constructor; auto|].
      + rewrite A4, A5. exact Hw.
      + rewrite A4. exact A6.
      + rewrite A4. exact A7.
      + auto.
    - intros (Sd & E1 & E2). split; [apply Sd|]. split; [apply Sd|]. split; [apply Sd|]. split; [exact E1|]. split; [exact E2|]. rewrite <- E1. split; apply Sd.
  Qed.
  Lemma history os d : ends_ok os -> execs os d0 = Ok d -> exists c, step_ok wl wr l r lb rb c0 d0 c d /\ dmpo d = ws /\ phys (tens (dmps d)) = phys (tens m).
  Proof.
    intros F H. destruct start as (S0 & _ & E1 & E2). destruct (execs_ok iter_perm Hqr Hsvd Heig Slb F S0 H) as (c & K).
    exists c. split; [exact K|]. destruct K as (_ & _ & _ & _ & P1 & P2). rewrite P1, P2, E1, E2. auto.
  Qed.

  (** after every history of position moves, local updates and recomputations: every stored left environment of a site
      up to the centre is the contraction of the current tensors left of it with the operator and the boundary, every
      stored right environment from the centre on that of the tensors right of it; canonical form is kept *)
  Theorem C38_history os d : ends_ok os -> execs os d0 = Ok d ->
    exists c, current c d /\ (canonical (tens m) c0 -> canonical (tens (dmps d)) c).
  Proof.
    intros F H. destruct (history F H) as (c & K & E1 & E2). exists c. split; [apply current_sound; split; [apply K | auto]|].
    intros Cn. apply K. destruct start as (_ & _ & -> & _). exact Cn.
  Qed.
  (** nothing is missing any more once both sides were computed or a run was started *)
  Theorem C38_complete os1 prep os2 d : ends_ok (os1 ++ os2) ->
    prep = [LeftEnvs; RightEnvs] \/ prep = [RightEnvs; LeftEnvs] \/ prep = [Restart] ->
    execs (os1 ++ prep ++ os2) d0 = Ok d -> exists c, current c d /\ complete c d.
  Proof.
    intros F Hp H. apply Forall_app in F. destruct F as [F1 F2]. rewrite execs_app in H. destruct (execs os1 d0) as [d1| |] eqn:H1; try discriminate. cbn [rbind] in H.
    rewrite execs_app in H. destruct (execs prep d1) as [d2| |] eqn:H2; try discriminate. cbn [rbind] in H.
    destruct (history F1 H1) as (c1 & K1 & E1 & P1). destruct start as (_ & An & _).
    assert (Forall (narrow l r) prep) as F3 by (destruct Hp as [->|[->| ->]]; repeat constructor).
    destruct (execs_ok iter_perm Hqr Hsvd Heig Slb F3 (proj1 K1) H2) as (c2' & K2).
    assert (anchored d1) as An1 by (apply K1, An).
    destruct (prepares_ready iter_perm Hqr Hsvd (eigs := eigs) Slb Hp An1 (proj1 K1) H2) as (c2 & S2 & R2).
    destruct (execs_ok iter_perm Hqr Hsvd Heig Slb F2 S2 H) as (c3 & K3).
    exists c3. destruct K2 as (_ & _ & _ & _ & E2 & P2). pose proof K3 as (S3 & R3 & _ & _ & E3 & P3).
    split; [apply current_sound; split; [exact S3|]; split; congruence | exact (R3 R2)].
  Qed.

  (** the operator handed to the eigensolver is the restriction of the whole operator to the states with a free tensor at
      the centre, respectively at two sites containing the centre *)
  Theorem C38_one_site os d c L Rr W t x y : ends_ok os -> execs os d0 = Ok d -> centre (dmps d) = Some c ->
    dget (lenvs d) c = Ok L -> dget (renvs d) c = Ok Rr -> nth_error ws c = Some W -> nth_error (tens (dmps d)) c = Some t ->
    shape x = shape t -> shape y = shape t ->
    exists v, single_site_matvec iter x L W Rr = Ok v /\ shape v = shape t /\
    lsum (idxs (shape t)) (fun ix => cj (elt y ix) *! elt v ix) =
    matrix_element lb rb (phys (tens m)) ws
      (block_amp (firstn c (tens (dmps d))) y (skipn (c + 1) (tens (dmps d))) 1) (block_amp (firstn c (tens (dmps d))) x (skipn (c + 1) (tens (dmps d))) 1).
  Proof.
    intros F H Cc HL HR HW Ht Sx Sy. destruct (history F H) as (c' & K & E1 & P1). assert (c' = c) as -> by (pose proof (s_centre (proj1 K)); congruence).
    rewrite <- E1 in HW. destruct (local_1s iter_perm Slb Srb (proj1 K) Ht HL HR HW Sx Sy) as (v & A & B & V). exists v. rewrite E1, P1 in V. auto.
  Qed.
  Theorem C38_two_sites os d c s L Rr W1 W2 t1 t2 x y m1 d1 k d2 m2 : ends_ok os -> execs os d0 = Ok d -> centre (dmps d) = Some c -> s <= c <= s + 1 ->
    dget (lenvs d) s = Ok L -> dget (renvs d) (s + 1) = Ok Rr -> nth_error ws s = Some W1 -> nth_error ws (s + 1) = Some W2 ->
    nth_error (tens (dmps d)) s = Some t1 -> nth_error (tens (dmps d)) (s + 1) = Some t2 -> shape t1 = [m1; d1; k] -> shape t2 = [k; d2; m2] ->
    shape x = [m1; d1; d2; m2] -> shape y = [m1; d1; d2; m2] ->
    exists v, two_site_matvec iter x L W1 W2 Rr = Ok v /\ shape v = [m1; d1; d2; m2] /\
    lsum (idxs [m1; d1; d2; m2]) (fun ix => cj (elt y ix) *! elt v ix) =
    matrix_element lb rb (phys (tens m)) ws
      (block_amp (firstn s (tens (dmps d))) y (skipn (s + 2) (tens (dmps d))) 2) (block_amp (firstn s (tens (dmps d))) x (skipn (s + 2) (tens (dmps d))) 2).
  Proof.
    intros F H Cc Hs HL HR HW1 HW2 Ht1 Ht2 S1 S2 Sx Sy. destruct (history F H) as (c' & K & E1 & P1). assert (c' = c) as -> by (pose proof (s_centre (proj1 K)); congruence).
    rewrite <- E1 in HW1, HW2. destruct (local_2s iter_perm Slb Srb (proj1 K) Hs Ht1 Ht2 HL HR HW1 HW2 S1 S2 Sx Sy) as (v & A & B & V). exists v. rewrite E1, P1 in V. auto.
  Qed.

  (** whole runs: the centre is back at site 0 and everything stored there is current and complete *)
  Theorem C38_run_one_site os d converged k d' e : l <= 1 -> r <= 1 -> ends_ok os -> execs os d0 = Ok d -> 0 < k -> run_one_site converged k d = Ok (d', e) ->
    current 0 d' /\ complete 0 d' /\ (canonical (tens m) c0 -> canonical (tens (dmps d')) 0).
  Proof.
    intros Hl Hr F H Pk Hrun. destruct (history F H) as (c & K & E1 & P1). destruct start as (_ & An & Em & _).
    assert (anchored d) as An1 by (apply K, An).
    destruct (run_ok iter_perm Hqr Hsvd Slb (fun c d b d' e => @optimize_1s_ok R iter qrf nrm rdiv eigs iter_perm Hqr Heig wl wr l r lb rb Slb c d b d' e Hl Hr) Pk An1 (proj1 K) Hrun) as [K' R'].
    pose proof K' as (S' & _ & _ & C' & E' & P'). split; [apply current_sound; split; [exact S'|]; split; congruence|]. split; [exact R'|].
    intros Cn. apply C', K. rewrite Em. exact Cn.
  Qed.
  Theorem C38_run_two_site os d D converged k d' e : ends_ok os -> execs os d0 = Ok d -> 0 < k -> run_two_site D converged k d = Ok (d', e) ->
    current 0 d' /\ complete 0 d' /\ (canonical (tens m) c0 -> canonical (tens (dmps d')) 0).
  Proof.
    intros F H Pk Hrun. destruct (history F H) as (c & K & E1 & P1). destruct start as (_ & An & Em & _).
    assert (anchored d) as An1 by (apply K, An).
    destruct (run_ok iter_perm Hqr Hsvd Slb (fun c d b d' e => @optimize_2s_ok R E iter svdf nkeep nrm rdiv eigs iter_perm Hsvd Heig wl wr l r lb rb Slb c d D b d' e) Pk An1 (proj1 K) Hrun) as [K' R'].
    pose proof K' as (S' & _ & _ & C' & E' & P'). split; [apply current_sound; split; [exact S'|]; split; congruence|]. split; [exact R'|].
    intros Cn. apply C', K. rewrite Em. exact Cn.
  Qed.
  (** [compute_energy] returns <psi|H|psi> of the state it leaves *)
  Theorem C38_energy os d d' e : ends_ok os -> execs os d0 = Ok d -> compute_energy d = Ok (d', e) ->
    current 0 d' /\ complete 0 d' /\ e = matrix_element lb rb (phys (tens m)) ws (amp (tens (dmps d'))) (amp (tens (dmps d'))).
  Proof.
    intros F H He. destruct (history F H) as (c & K & E1 & P1). destruct start as (_ & An & _). assert (anchored d) as An1 by (apply K, An).
    destruct (energy_ok iter_perm Slb Hqr Hsvd An1 (proj1 K) He) as (K' & R' & V). pose proof K' as (S' & _ & _ & _ & E' & P').
    assert (dmpo d' = ws) as Ew by congruence. assert (phys (tens (dmps d')) = phys (tens m)) as Ep by congruence. rewrite Ew, Ep in V.
    split; [apply current_sound; auto|]. auto.
  Qed.

  (** with factorisations and an eigensolver that do not fail, and no empty tensor, runs succeed; [compute_energy] always does *)
  Theorem C38_run_one_site_total converged k : total qrf -> eig_total eigs -> (forall t, In t (tens m) -> 0 < nprod (shape t)) -> 0 < k ->
    l <= 1 -> r <= 1 -> exists d' e, run_one_site converged k d0 = Ok (d', e).
  Proof.
    intros T1 T2 P Pk Hl Hr. destruct start as (S0 & An & Em & _). rewrite <- Em in P.
    exact (run_total nkeep err_ge1 nrm rdiv iter_perm Hqr Hsvd Slb T1 converged
      (fun c d b d' e => @optimize_1s_ok R iter qrf nrm rdiv eigs iter_perm Hqr Heig wl wr l r lb rb Slb c d b d' e Hl Hr)
      (need := fun _ _ _ => True) (fun _ _ _ => I) (fun _ _ _ _ => I)
      (fun c d b _ Sd Rd Pd => @optimize_1s_total R iter qrf nrm rdiv eigs iter_perm Hqr Heig wl wr l r lb rb T1 T2 c d b Sd Rd Pd) I Pk An S0 P).
  Qed.
  Theorem C38_run_two_site_total D converged k : total qrf -> total svdf -> eig_total eigs -> (forall t, In t (tens m) -> 0 < nprod (shape t)) -> 0 < k ->
    (forall rel D err s, D <> Some 0 -> s <> [] -> 0 < nkeep rel D err s) -> D <> Some 0 ->
    2 <= length (tens m) -> exists d' e, run_two_site D converged k d0 = Ok (d', e).
  Proof.
    intros T1 T3 T2 P Pk Hk HD HN. destruct start as (S0 & An & Em & _). rewrite <- Em in P.
    refine (run_total nkeep err_ge1 nrm rdiv iter_perm Hqr Hsvd Slb T1 converged
      (fun c d b d' e => @optimize_2s_ok R E iter svdf nkeep nrm rdiv eigs iter_perm Hsvd Heig wl wr l r lb rb Slb c d D b d' e)
      (need := fun (b : bool) n c => if b then c + 1 < n else 0 < c) _ _
      (fun c d b Hn Sd Rd Pd => @optimize_2s_total R E iter svdf nkeep nrm rdiv eigs iter_perm Hsvd Heig wl wr l r lb rb T3 T2 Hk c d D b HD Hn Sd Rd Pd) _ Pk An S0 P); intros; try lia.
    rewrite Em. lia.
  Qed.
  End Chain.

  (** with the canonical form the embedding of the block preserves inner products, so that the local problem is an ordinary
      eigenproblem *)
  Theorem C38_isometry l r (p q : list (tensor R)) (x y : tensor R) m k dm n : chain l p m -> chain k q r ->
    (forall t, In t p -> left_iso t) -> (forall t, In t q -> right_iso t) -> length dm = n -> shape x = m :: dm ++ [k] -> shape y = m :: dm ++ [k] ->
    overlap l r (phys p ++ dm ++ phys q) (block_amp p y q n) (block_amp p x q n) = lsum (idxs (shape x)) (fun ix => cj (elt y ix) *! elt x ix).
  Proof. apply block_isometry. Qed.

  (** the boundaries of [FiniteDMRG] *)
  Theorem C38_finite (m : mps R) ws l r wl wr d : chain l (tens m) r -> ochain wl ws (phys (tens m)) wr -> finite_dmrg m ws = Ok d ->
    init_dmrg m ws (ones [wl; l; l]) (ones [wr; r; r]) = Ok d.
  Proof.
    intros C O H. unfold finite_dmrg in H.
    destruct (get ws 0) as [w0| |] eqn:G1; try discriminate. destruct (get (tens m) 0) as [t0| |] eqn:G2; try discriminate.
    destruct (get ws (length ws - 1)) as [wn| |] eqn:G3; try discriminate. destruct (get (tens m) (length (tens m) - 1)) as [tn| |] eqn:G4; try discriminate. cbn [rbind] in H.
    apply get_inv in G1, G2, G3, G4. destruct (chain_shape C G2) as (a1 & a2 & a3 & S2). destruct (chain_shape C G4) as (b1 & b2 & b3 & S4).
    pose proof (first_dim C G2 S2) as ->. pose proof (last_dim C G4 S4) as ->. rewrite S2, S4 in H. cbn [nth] in H.
    assert (nth 0 (shape w0) 0 = wl) as E0. { destruct ws as [|w ws]; [discriminate|]. injection G1 as ->. destruct (phys (tens m)) as [|u us]; [contradiction|]. destruct O as (k & SW & _). rewrite SW. reflexivity. }
    destruct (ochain_cut O G3) as (x & k & u & _ & SW & _ & Om). rewrite skipn_all2 in Om by lia.
    assert (k = wr) as ->. { destruct (skipn _ (phys (tens m))); [exact Om | contradiction]. }
    rewrite E0, SW in H. cbn [nth] in H. exact H.
  Qed.
End C38.
Print Assumptions C38_history.
Print Assumptions C38_complete.
Print Assumptions C38_one_site.
Print Assumptions C38_two_sites.
Print Assumptions C38_run_one_site.
Print Assumptions C38_run_two_site.
Print Assumptions C38_energy.
Print Assumptions C38_run_one_site_total.
Print Assumptions C38_run_two_site_total.
Print Assumptions C38_isometry.
Print Assumptions C38_finite.

(** Examples over the rationals: three sites of physical dimensions 2, 1, 2 with bonds 1, 2, 2, 1 and the operator
    X.1.X + Z.1.1.  The eigensolver takes one power iteration of the local operator, for two sites it returns a
    tensor with a known singular value decomposition. *)
Definition da : tensor Q_cjr := qt [1; 2; 2] (map qn [1; 1; 0; 1]%Z).
Definition db : tensor Q_cjr := qt [2; 1; 2] (map qn [2; 1; 1; 1]%Z).
Definition dc : tensor Q_cjr := qt [2; 2; 1] (map qn [1; 0; 1; 1]%Z).
Definition dm : mps Q_cjr := MPS [da; db; dc] (Some 1).
Definition dw : list (tensor Q_cjr) :=
  [qt [1; 2; 2; 2] (map qn [0; 1; 1; 0; 1; 0; 0; -1]%Z); qt [2; 2; 1; 1] (map qn [1; 0; 0; 1]%Z);
   qt [2; 1; 2; 2] (map qn [0; 1; 1; 0; 1; 0; 0; 1]%Z)].
Definition dd : dmrg Q_cjr := DMRG dm dw [(0, ones [1; 1; 1])] [(2, ones [1; 1; 1])].
Definition mat (t : tensor Q_cjr) : tensor Q_cjr := let l := map (elt t) (idxs (shape t)) in qt (shape t) l.
Definition eigx (A : tensor Q_cjr -> res (tensor Q_cjr)) (t : tensor Q_cjr) : res (Q_cjr * tensor Q_cjr) :=
  guard (0 <? nprod (shape t))
  (rbind (A t) (fun y => guard (list_eqb (shape y) (shape t))
    (match shape t with
     | [a; b; c; d] => Ok (qn 1, Tensor (shape t) (fun ix => if ravel [a; b] (firstn 2 ix) =? ravel [c; d] (skipn 2 ix) then qn 2 else r0))
     | _ => Ok (qn 1, mat y)
     end))).
Lemma eigx_ok : eig_ok eigx.
Proof.
  intros A t e v H. unfold eigx in H. destruct (0 <? nprod (shape t)) eqn:P; [|discriminate]. apply Nat.ltb_lt in P. cbn [guard] in H.
  destruct (A t) as [y| |]; try discriminate. cbn [rbind] in H. destruct (list_eqb (shape y) (shape t)) eqn:Q; [|discriminate]. cbn [guard] in H.
  apply list_eqb_spec in Q. split; [|exact P].
  destruct (shape t) as [|a [|b [|c [|f [|g s]]]]] eqn:St; injection H as _ <-; try exact Q. reflexivity.
Qed.
Notation execx := (execs idz qrx svdx keepx err1 nrmx divx eigx).
Definition qof (x : Q_cjr) : Q := this x.
Definition dump (d : dmrg Q_cjr) := (centre (dmps d), map (fun x => (fst x, shape (snd x), map (fun ix => qof (elt (snd x) ix)) (idxs (shape (snd x))))) (lenvs d), map (fun x => (fst x, shape (snd x), map (fun ix => qof (elt (snd x) ix)) (idxs (shape (snd x))))) (renvs d)).
Definition all_ops := [Position 1%Z; LeftEnvs; RightEnvs; Opt1 true; Opt1 false; Position 0%Z; Position 2%Z; Opt2 None false; Opt2 (Some 1) true; Restart].

Example C38_start_case : chain 1 (tens dm) 1 /\ ochain 1 dw (phys (tens dm)) 1 /\ centre dm = Some 1 /\ finite_dmrg dm dw = Ok dd /\
  init_dmrg dm dw (ones [1; 1; 1]) (ones [1; 1; 1]) = Ok dd /\ eig_ok eigx /\
  Forall (fun o => match o with Opt1 _ => 1 <= 1 /\ 1 <= 1 | _ => True end) all_ops.
Proof.
  split; [exists 2, 2; split; [reflexivity|]; exists 1, 2; split; [reflexivity|]; exists 2, 1; split; reflexivity|].
  split; [exists 2; split; [reflexivity|]; exists 2; split; [reflexivity|]; exists 1; split; reflexivity|].
  split; [reflexivity|]. split; [reflexivity|]. split; [reflexivity|]. split; [exact eigx_ok|]. repeat constructor.
Qed.
Example C38_history_case :
  match execx all_ops dd with Ok d => Some (dump d) | _ => None end =
  Some (Some 0,
    [(2, [2; 1; 1], [0%Q; 1%Q]); (1, [2; 2; 2], [0%Q; 1%Q; 1%Q; 0%Q; 1%Q; 0%Q; 0%Q; (-1)%Q]); (0, [1; 1; 1], [1%Q])],
    [(0, [2; 1; 1], [0%Q; 1%Q]); (1, [2; 1; 1], [0%Q; 1%Q]); (2, [1; 1; 1], [1%Q])]).
Proof. vm_compute. reflexivity. Qed.
Example C38_run_case :
  match run_one_site idz qrx svdx keepx err1 nrmx divx eigx (fun _ _ => false) 2 dd with Ok (d, _) => Some (dump d) | _ => None end =
  Some (Some 0,
    [(2, [2; 2; 2], [0%Q; 1%Q; 1%Q; 0%Q; 1%Q; 0%Q; 0%Q; (-1)%Q]); (1, [2; 2; 2], [0%Q; 1%Q; 1%Q; 0%Q; 1%Q; 0%Q; 0%Q; (-1)%Q]); (0, [1; 1; 1], [1%Q])],
    [(0, [2; 2; 2], [0%Q; 1%Q; 1%Q; 0%Q; 1%Q; 0%Q; 0%Q; 1%Q]); (1, [2; 2; 2], [0%Q; 1%Q; 1%Q; 0%Q; 1%Q; 0%Q; 0%Q; 1%Q]); (2, [1; 1; 1], [1%Q])]) /\
  (match run_two_site idz qrx svdx keepx err1 nrmx divx eigx None (fun _ _ => false) 2 dd with Ok (d, _) => centre (dmps d) | _ => None end) = Some 0.
Proof. split; vm_compute; reflexivity. Qed.
Example C38_energy_case :
  match compute_energy idz qrx svdx keepx err1 nrmx divx dd with
  | Ok (d, e) => Some (qof e, qof (matrix_element (ones [1; 1; 1]) (ones [1; 1; 1]) [2; 1; 2] dw (amp (tens (dmps d))) (amp (tens (dmps d)))))
  | _ => None
  end = Some (21 # 2, 21 # 2)%Q.
Proof. vm_compute. reflexivity. Qed.
Definition dx : tensor Q_cjr := qt [2; 1; 2] (map qn [1; 3; 0; 2]%Z).
Definition dx2 : tensor Q_cjr := qt [2; 1; 2; 1] (map qn [1; 3; 0; 2]%Z).
Definition inner (y x : tensor Q_cjr) : Q_cjr := lsum (idxs (shape x)) (fun ix => (elt y ix *! elt x ix)%R).
Example C38_local_case :
  match execx [LeftEnvs; RightEnvs] dd with
  | Ok d =>
      match dget (lenvs d) 1, dget (renvs d) 1, dget (renvs d) 2, get dw 1, get dw 2 with
      | Ok L, Ok R1, Ok R2, Ok W1, Ok W2 =>
          match single_site_matvec idz dx L W1 R1, two_site_matvec idz dx2 L W1 W2 R2 with
          | Ok v, Ok v2 =>
              Some (qof (inner db v), qof (matrix_element (ones [1; 1; 1]) (ones [1; 1; 1]) [2; 1; 2] dw (block_amp [da] db [dc] 1) (block_amp [da] dx [dc] 1)),
                    qof (inner dx2 v2), qof (matrix_element (ones [1; 1; 1]) (ones [1; 1; 1]) [2; 1; 2] dw (block_amp [da] dx2 [] 2) (block_amp [da] dx2 [] 2)))
          | _, _ => None
          end
      | _, _, _, _, _ => None
      end
  | _ => None
  end = Some (64, 64, 26, 26)%Q.
Proof. vm_compute. reflexivity. Qed.
Example C38_isometry_case :
  let u : tensor Q_cjr := qt [1; 2; 2] (map (fun n => qd n 5) [3; 4; -4; 3]%Z) in
  let v : tensor Q_cjr := qt [2; 2; 1] (map (fun n => qd n 13) [5; 12; -12; 5]%Z) in
  colsb (as_matrix u 2) 2 2 = true /\ rowsb (as_matrix v 1) 2 2 = true /\
  qof (overlap 1 1 [2; 1; 2] (block_amp [u] db [v] 1) (block_amp [u] dx [v] 1)) = 7%Q /\ qof (inner db dx) = 7%Q.
Proof. vm_compute. repeat split. Qed.
