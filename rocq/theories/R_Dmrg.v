(** * R_Dmrg: where the density matrix renormalisation group departs from what it says *)
From Coq Require Import List ZArith Lia Permutation QArith Qcanon.
From Verif Require Import Prelude Res Algebra Tensor BlockSparse Backends Mps MpsSpec MpsExamples Dmrg DmrgSpec P_Mps P_Dmrg.
Import ListNotations.
Set Implicit Arguments.
Unset Strict Implicit.
Local Open Scope nat_scope.

(** a call that gives a result *)
Definition isok {A} (x : res A) : bool := match x with Ok _ => true | _ => false end.
Lemma isok_ok A (x : res A) : isok x = true -> exists y, x = Ok y.
Proof. destruct x; [eauto | discriminate | discriminate]. Qed.
Definition israise {A} (x : res A) : bool := match x with Raise => true | _ => false end.
Lemma israise_ok A (x : res A) : israise x = true -> x = Raise.
Proof. destruct x; [discriminate | reflexivity | discriminate]. Qed.

(** dmrg.py:520-533 runs one optimisation before the loop "for the case len(mps) = 1"; with two sites per step it
    cannot: every run on a chain of one site raises *)
Definition om : mps Q_cjr := MPS [qt [1; 1; 1] [qn 2]] (Some 0).
Definition ow : list (tensor Q_cjr) := [qt [1; 1; 1; 1] [qn 3]].
Definition od : dmrg Q_cjr := DMRG om ow [(0, ones [1; 1; 1])] [(0, ones [1; 1; 1])].
Lemma two_of_one eigs D converged k : run_two_site idz qrx svdx keepx err1 nrmx divx eigs D converged (S k) od = Raise.
Proof.
  unfold run_two_site, run.
  assert (match restart idz qrx svdx keepx err1 nrmx divx od with Ok d => length (tens (dmps d)) = 1 /\ centre (dmps d) = Some 0 | _ => False end) as K by (vm_compute; auto).
  destruct (restart idz qrx svdx keepx err1 nrmx divx od) as [d| |]; try contradiction. cbn [rbind]. destruct K as [K1 K2].
  assert (dposition idz qrx svdx keepx err1 nrmx divx 0 d = Ok d) as ->. { unfold dposition. rewrite K1, K2. reflexivity. }
  cbn [rbind]. unfold optimize_2s. rewrite K2. destruct (tens (dmps d)) as [|t [|t' l]]; try discriminate K1. reflexivity.
Qed.
Lemma one_of_one : isok (run_one_site idz qrx svdx keepx err1 nrmx divx eigx (fun _ _ => false) 1 od) = true.
Proof. vm_compute. reflexivity. Qed.
Theorem C38_two_sites_of_one_refuted : exists (m : mps Q_cjr) ws d,
  chain 1 (tens m) 1 /\ ochain 1 ws (phys (tens m)) 1 /\ length (tens m) = 1 /\ finite_dmrg m ws = Ok d /\
  (forall eigs D converged k, run_two_site idz qrx svdx keepx err1 nrmx divx eigs D converged (S k) d = Raise) /\
  exists f, run_one_site idz qrx svdx keepx err1 nrmx divx eigx (fun _ _ => false) 1 d = Ok f.
Proof.
  exists om, ow, od.
  split; [exists 1, 1; split; reflexivity|]. split; [exists 1; split; reflexivity|]. split; [reflexivity|]. split; [reflexivity|].
  split; [exact two_of_one | exact (isok_ok one_of_one)].
Qed.
Print Assumptions C38_two_sites_of_one_refuted.

(** a new object knows the boundaries only: position (dmrg.py:110) raises on it although site and state are fine, and so
    does a local update; after compute_left_envs and compute_right_envs both succeed *)
Lemma fresh_raises : (israise (execx [Position 2%Z] dd) && israise (execx [Opt1 true] dd) && isok (execx [LeftEnvs; RightEnvs; Position 2%Z; Opt1 false] dd) = true)%bool.
Proof. vm_compute. reflexivity. Qed.
Theorem C38_fresh_position_refuted : exists (m : mps Q_cjr) ws d,
  chain 1 (tens m) 1 /\ ochain 1 ws (phys (tens m)) 1 /\ length (tens m) = 3 /\ finite_dmrg m ws = Ok d /\
  execx [Position 2%Z] d = Raise /\ execx [Opt1 true] d = Raise /\ exists d', execx [LeftEnvs; RightEnvs; Position 2%Z; Opt1 false] d = Ok d'.
Proof.
  exists dm, dw, dd. destruct C38_start_case as (A & B & _ & C & _). pose proof fresh_raises as K. apply andb_prop in K. destruct K as [K G]. apply andb_prop in K. destruct K as [D F]. apply israise_ok in D, F.
  split; [exact A|]. split; [exact B|]. split; [reflexivity|]. split; [exact C|]. split; [exact D|]. split; [exact F|]. exact (isok_ok G).
Qed.
Print Assumptions C38_fresh_position_refuted.

(** at the last site a one-site update throws the triangular factor away (dmrg.py:222-236).  With an outer bond of
    dimension 2 and physical dimension 1 the chain then ends in a bond of dimension 1, while the right boundary
    has dimension 2 *)
Definition em : mps Q_cjr := MPS [qt [1; 1; 2] [qn 1; qn 0]] (Some 0).
Definition ed : dmrg Q_cjr := DMRG em ow [(0, ones [1; 1; 1])] [(0, ones [1; 2; 2])].
Lemma end_breaks : match execx [Opt1 true] ed with Ok d => map (@shape Q_cjr) (tens (dmps d)) = [[1; 1; 1]] /\ map (fun x => (fst x, shape (snd x))) (renvs d) = [(0, [1; 2; 2])] | _ => False end.
Proof. vm_compute. auto. Qed.
Theorem C38_end_update_refuted : exists (m : mps Q_cjr) ws d d',
  chain 1 (tens m) 2 /\ ochain 1 ws (phys (tens m)) 1 /\ finite_dmrg m ws = Ok d /\ execx [Opt1 true] d = Ok d' /\
  chain 1 (tens (dmps d')) 1 /\ exists e, dget (renvs d') 0 = Ok e /\ shape e = [1; 2; 2].
Proof.
  exists em, ow, ed. pose proof end_breaks as K. destruct (execx [Opt1 true] ed) as [d| |]; try contradiction. destruct K as [K1 K2]. exists d.
  split; [exists 1, 2; split; reflexivity|]. split; [exists 1; split; reflexivity|]. split; [reflexivity|]. split; [reflexivity|].
  destruct (tens (dmps d)) as [|t [|u l]]; try discriminate K1. injection K1 as K1.
  split; [exists 1, 1; split; [exact K1 | reflexivity]|].
  destruct (renvs d) as [|[k e] [|x l]]; try discriminate K2. injection K2 as -> K2. exists e. split; [reflexivity | exact K2].
Qed.
Print Assumptions C38_end_update_refuted.
