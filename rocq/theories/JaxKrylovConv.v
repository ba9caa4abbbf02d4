(** * JaxKrylovConv: when the restarted methods say that they have converged *)
From Coq Require Import List Lia.
From Verif Require Import Prelude Algebra Krylov KrylovFacts KrylovSpec Gmres GmresSpec JaxKrylov JaxKrylovSpec.
Import ListNotations.
Open Scope nat_scope.

Section Conv.
  Context {K : cfd}.
  Variable eig : mx K -> option (list K * mx K).
  Variables (eps tol : K).

  (** the bound beta |u| on the residual of the eigenvalue th is below eps |H| or |th| tol, whichever is larger *)
  Definition small (beta hn th u : K) : Prop := exists a b m, csqrt (rmul (cj th) th) = Some a /\ csqrt (rmul (cj u) u) = Some b /\
    ((clt (rmul eps hn) (rmul a tol) = true /\ m = rmul a tol) \/ (clt (rmul eps hn) (rmul a tol) = false /\ m = rmul eps hn)) /\ clt (rmul beta b) m = true.

  Lemma all_small_ok beta hn l b : all_small eps tol beta hn l = Val b -> (b = true <-> forall th u, In (th, u) l -> small beta hn th u).
  Proof.
    revert b. induction l as [|[th u] l IH]; intros b H; cbn [all_small] in H.
    - injection H as <-. split; [intros _ ? ? []|reflexivity].
    - unfold cabs in H. destruct (csqrt (rmul (cj th) th)) as [a|] eqn:Ea; cbn [ofopt obind] in H; [|discriminate].
      destruct (csqrt (rmul (cj u) u)) as [c|] eqn:Ec; cbn [ofopt obind] in H; [|discriminate].
      destruct (all_small eps tol beta hn l) as [r| |]; cbn [obind] in H; try discriminate. injection H as <-. specialize (IH r eq_refl).
      assert (clt (rmul beta c) (cmax (rmul eps hn) (rmul a tol)) = true <-> small beta hn th u) as S.
      { unfold cmax, small. split.
        - intros H. exists a, c. destruct (clt (rmul eps hn) (rmul a tol)) eqn:E; eexists; (split; [exact Ea|]); (split; [exact Ec|]); (split; [|exact H]); auto.
        - intros (a' & c' & m & E1 & E2 & E3 & E4). rewrite Ea in E1. rewrite Ec in E2. injection E1 as <-. injection E2 as <-.
          destruct E3 as [[E3 ->]|[E3 ->]]; rewrite E3; exact E4. }
      rewrite andb_true_iff, IH, S. split.
      + intros [H1 H2] th' u' [E|Hin]; [injection E as <- <-; exact H1|apply H2, Hin].
      + intros H. split; [apply H; left; reflexivity|]. intros th' u' Hin. apply H. right. exact Hin.
  Qed.
  Lemma seq_pairs (f : nat -> K * K) n (P : K -> K -> Prop) : (forall th u, In (th, u) (map f (seq 0 n)) -> P th u) <-> forall i, i < n -> P (fst (f i)) (snd (f i)).
  Proof.
    split.
    - intros H i Hi. apply H. rewrite <- surjective_pairing. apply in_map, in_seq. lia.
    - intros H th u Hin. apply in_map_iff in Hin. destruct Hin as (i & E & Hi). apply in_seq in Hi. specialize (H i ltac:(lia)). rewrite E in H. exact H.
  Qed.

  Lemma check_eig_ok ncv numeig beta H b : 0 < numeig -> check_eig eig eps ncv numeig tol beta H = Val b ->
    exists th U hn, eig H = Some (th, U) /\ csqrt (nsum ncv (fun i => nsum ncv (fun j => rmul (cj (ent H i j)) (ent H i j)))) = Some hn /\
      (b = true <-> forall n, n < numeig -> small beta hn (nth n th r0) (ent U (numeig - 1) n)).
  Proof.
    intros Hp E. unfold check_eig in E. destruct (eig H) as [[th U]|] eqn:Ee; cbn [ofopt obind fst snd] in E; [|discriminate].
    unfold frob in E. destruct (csqrt _) as [hn|] eqn:En; cbn [ofopt obind] in E; [|discriminate].
    exists th, U, hn. split; [reflexivity|]. split; [reflexivity|]. rewrite (all_small_ok _ _ _ _ E), seq_pairs. cbn [fst snd].
    destruct (Nat.eqb_spec numeig 0); [lia|]. reflexivity.
  Qed.
  Lemma check_eigh_ok numeig beta H b : check_eigh eig eps numeig tol beta H = Val b ->
    exists th U hn, eig (mkmx numeig numeig (ent H)) = Some (th, U) /\
      csqrt (nsum numeig (fun i => nsum numeig (fun j => rmul (cj (ent H i j)) (ent H i j)))) = Some hn /\
      (b = true <-> forall n, n < numeig -> small beta hn (nth n th r0) (ent U (numeig - 1) n)).
  Proof.
    intros E. unfold check_eigh in E. unfold frob in E.
    assert (nsum numeig (fun i => nsum numeig (fun j => rmul (cj (ent (mkmx numeig numeig (ent H)) i j)) (ent (mkmx numeig numeig (ent H)) i j))) =
            nsum numeig (fun i => nsum numeig (fun j => rmul (cj (ent H i j)) (ent H i j)))) as Q.
    { apply nsum_ext. intros i Hi. apply nsum_ext. intros j Hj. rewrite ent_mkmx by assumption. reflexivity. }
    rewrite Q in E. destruct (csqrt _) as [hn|] eqn:En; cbn [ofopt obind] in E; [|discriminate].
    destruct (eig _) as [[th U]|] eqn:Ee; cbn [ofopt obind fst snd] in E; [|discriminate].
    exists th, U, hn. split; [reflexivity|]. split; [reflexivity|]. rewrite (all_small_ok _ _ _ _ E), seq_pairs. reflexivity.
  Qed.
End Conv.
