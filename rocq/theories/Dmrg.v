(** * Dmrg: the density matrix renormalisation group, tensornetwork/matrixproductstates/dmrg.py.

    The state is the matrix product state, the list [self.mpo.tensors] and the two dictionaries of environments
    (natural keys: the key -1 is never stored, 145-149 only tries to delete it).  [eigs A t] stands for
    [backend.eigsh_lanczos(A, initial_state=t, numeig=1)]: the energy and the state, or an exception; [A] is
    the closure [matvec(., *args)].  Backends, dtypes, jit, printing and the number of Krylov vectors are not
    modelled; an exception ends the history. *)
From Coq Require Import List ZArith.
From Verif Require Import Prelude Res Algebra Tensor Ncon BlockSparse Backends Mps.
Import ListNotations.
Set Implicit Arguments.
Unset Strict Implicit.
Local Open Scope nat_scope.

Section Dmrg.
  Context {R : cjr} {E : Type}.
  Variable iter : list Z -> list Z.
  Variable qrf : tensor R -> res (tensor R * tensor R).
  Variable svdf : tensor R -> res (tensor R * list R * tensor R).
  Variable nkeep : bool -> option nat -> option E -> list R -> nat.
  Variable err_ge1 : E -> bool.
  Variable nrm : tensor R -> R.
  Variable rdiv : R -> R -> R.
  Variable eigs : (tensor R -> res (tensor R)) -> tensor R -> res (R * tensor R).

  (** dmrg.py:56-61 *)
  Record dmrg := DMRG { dmps : mps R; dmpo : list (tensor R); lenvs : dict (R := R); renvs : dict (R := R) }.

  (** [d[k] = v] and [del d[k]] *)
  Definition ddel (d : dict (R := R)) (k : nat) : dict (R := R) := filter (fun x => negb (fst x =? k)) d.
  Definition dset (d : dict (R := R)) (k : nat) (v : tensor R) : dict (R := R) := (k, v) :: ddel d k.

  Notation ncon_z := (@ncon_z R iter).
  (** 86-89 [single_site_matvec] *)
  Definition single_site_matvec (t L W Rr : tensor R) : res (tensor R) :=
    ncon_z [L; t; W; Rr] [[3; 1; -1]; [1; 2; 4]; [3; 5; -2; 2]; [5; 4; -3]]%Z.
  (** 91-96 [two_site_matvec] *)
  Definition two_site_matvec (t L W1 W2 Rr : tensor R) : res (tensor R) :=
    ncon_z [L; t; W1; W2; Rr] [[3; 1; -1]; [1; 2; 5; 6]; [3; 4; -2; 2]; [4; 7; -3; 5]; [7; 6; -4]]%Z.
  (** 98-102 [add_left_layer] *)
  Definition add_left_layer (L t W : tensor R) : res (tensor R) :=
    ncon_z [L; t; W; conj_t t] [[2; 1; 5]; [1; 3; -2]; [2; -1; 4; 3]; [5; 4; -3]]%Z.
  (** 104-108 [add_right_layer] *)
  Definition add_right_layer (Rr t W : tensor R) : res (tensor R) :=
    ncon_z [Rr; t; W; conj_t t] [[2; 1; 5]; [-2; 3; 1]; [-1; 2; 4; 3]; [-3; 4; 5]]%Z.

  (** 132-135: the loop over [m in ns] *)
  Fixpoint add_lefts (ts ws : list (tensor R)) (ns : list nat) (d : dict (R := R)) : res (dict (R := R)) :=
    match ns with
    | [] => Ok d
    | m :: r =>
        rbind (dget d m) (fun L => rbind (get ts m) (fun t => rbind (get ws m) (fun W =>
        rbind (add_left_layer L t W) (fun L' => add_lefts ts ws r (dset d (m + 1) L')))))
    end.
  (** 140-143: [self.right_envs[m]] from [m + 1] *)
  Fixpoint add_rights (ts ws : list (tensor R)) (ns : list nat) (d : dict (R := R)) : res (dict (R := R)) :=
    match ns with
    | [] => Ok d
    | m :: r =>
        rbind (dget d (m + 1)) (fun Rr => rbind (get ts (m + 1)) (fun t => rbind (get ws (m + 1)) (fun W =>
        rbind (add_right_layer Rr t W) (fun R' => add_rights ts ws r (dset d m R')))))
    end.

  (** [self.mps.position(site)] *)
  Definition mps_position (m : mps R) (site : Z) : res (mps R * R) :=
    position iter qrf svdf nkeep err_ge1 nrm rdiv true None None m site.

  (** 110-159 [position] *)
  Definition dposition (site : Z) (d : dmrg) : res dmrg :=
    let n := length (tens (dmps d)) in
    guard (negb (Z.of_nat n <=? site)%Z) (guard (negb (site <? 0)%Z)
    (match centre (dmps d) with
     | None => Raise
     | Some c =>
         let s := Z.to_nat site in
         if s =? c then Ok d
         else
           rbind (mps_position (dmps d) site) (fun f => let m := fst f in
           rbind (if c <? s then rbind (add_lefts (tens m) (dmpo d) (seq c (s - c)) (lenvs d)) (fun l => Ok (l, renvs d))
                  else rbind (add_rights (tens m) (dmpo d) (rev (seq s (c - s))) (renvs d)) (fun r => Ok (lenvs d, r))) (fun e =>
           Ok (DMRG m (dmpo d) (fold_left ddel (seq (s + 1) (n - s)) (fst e)) (fold_left ddel (seq 0 s) (snd e)))))
     end)).

  (** 161-172 [compute_left_envs] *)
  Definition compute_left_envs (d : dmrg) : res dmrg :=
    match centre (dmps d) with
    | None => Raise
    | Some c =>
        rbind (dget (lenvs d) 0) (fun lb =>
        rbind (add_lefts (tens (dmps d)) (dmpo d) (seq 0 c) [(0, lb)]) (fun l =>
        Ok (DMRG (dmps d) (dmpo d) l (renvs d))))
    end.
  (** 174-184 [compute_right_envs] *)
  Definition compute_right_envs (d : dmrg) : res dmrg :=
    let n := length (tens (dmps d)) in
    match centre (dmps d) with
    | None => Raise
    | Some c =>
        rbind (dget (renvs d) (n - 1)) (fun rb =>
        rbind (add_rights (tens (dmps d)) (dmpo d) (rev (seq c (n - 1 - c))) [(n - 1, rb)]) (fun r =>
        Ok (DMRG (dmps d) (dmpo d) (lenvs d) r)))
    end.

  (** 186-250 [_optimize_1s_local]; [right] is the sweep direction *)
  Definition optimize_1s (right : bool) (d : dmrg) : res (dmrg * R) :=
    match centre (dmps d) with
    | None => Raise
    | Some c =>
        let ts := tens (dmps d) in
        rbind (dget (lenvs d) c) (fun L =>
        rbind (dget (renvs d) c) (fun Rr =>
        rbind (get (dmpo d) c) (fun W =>
        rbind (get ts c) (fun t =>
        rbind (eigs (fun x => single_site_matvec x L W Rr) t) (fun f => let '(e, v) := f in
        let g := tdiv rdiv v (nrm v) in
        if right then
          rbind (qr_at qrf g 2) (fun f => let '(q, r) := f in
          let ts1 := set_nth c q ts in
          if c <? length ts - 1 then
            rbind (get ts1 (c + 1)) (fun u =>
            rbind (ncon_z [r; u] [[-1; 1]; [1; -2; -3]]%Z) (fun w =>
            rbind (add_left_layer L q W) (fun L' =>
            Ok (DMRG (MPS (set_nth (c + 1) w ts1) (Some (c + 1))) (dmpo d) (dset (lenvs d) (c + 1) L') (renvs d), e))))
          else Ok (DMRG (MPS ts1 (Some c)) (dmpo d) (lenvs d) (renvs d), e))
        else
          rbind (rq_at qrf g 1) (fun f => let '(r, q) := f in
          let ts1 := set_nth c q ts in
          if 0 <? c then
            rbind (get ts1 (c - 1)) (fun u =>
            rbind (ncon_z [u; r] [[-1; -2; 1]; [1; -3]]%Z) (fun w =>
            rbind (add_right_layer Rr q W) (fun R' =>
            Ok (DMRG (MPS (set_nth (c - 1) w ts1) (Some (c - 1))) (dmpo d) (lenvs d) (dset (renvs d) (c - 1) R'), e))))
          else Ok (DMRG (MPS ts1 (Some c)) (dmpo d) (lenvs d) (renvs d), e)))))))
    end.

  (** 252-342 [_optimize_2s_local].  To the right [tensors[site + 1]] raises at the last site, so that the
      test [site < len - 1] of 312 always succeeds; to the left of site 0 [left_envs[-1]] raises. *)
  Definition optimize_2s (D : option nat) (right : bool) (d : dmrg) : res (dmrg * R) :=
    match centre (dmps d) with
    | None => Raise
    | Some c =>
        let ts := tens (dmps d) in
        guard (right || (0 <? c))
        (let s := if right then c else c - 1 in
         rbind (get ts s) (fun t1 =>
         rbind (get ts (s + 1)) (fun t2 =>
         rbind (ncon_z [t1; t2] [[-1; -2; 1]; [1; -3; -4]]%Z) (fun b =>
         rbind (dget (lenvs d) s) (fun L =>
         rbind (get (dmpo d) s) (fun W1 =>
         rbind (get (dmpo d) (s + 1)) (fun W2 =>
         rbind (dget (renvs d) (s + 1)) (fun Rr =>
         rbind (eigs (fun x => two_site_matvec x L W1 W2 Rr) b) (fun f => let '(e, v) := f in
         let g := tdiv rdiv v (nrm v) in
         rbind (svd_at svdf nkeep true D None g 2) (fun f => let '(u, sv, vh, _) := f in
         if right then
           rbind (ncon_z [diagflat sv; vh] [[-1; 1]; [1; -2; -3]]%Z) (fun w =>
           rbind (add_left_layer L u W1) (fun L' =>
           Ok (DMRG (MPS (set_nth (c + 1) w (set_nth c u ts)) (Some (c + 1))) (dmpo d) (dset (lenvs d) (c + 1) L') (renvs d), e)))
         else
           rbind (ncon_z [u; diagflat sv] [[-1; -2; 1]; [1; -3]]%Z) (fun w =>
           rbind (add_right_layer Rr vh W2) (fun R' =>
           Ok (DMRG (MPS (set_nth (c - 1) w (set_nth c vh ts)) (Some (c - 1))) (dmpo d) (lenvs d) (dset (renvs d) (c - 1) R'), e)))))))))))))
    end.

  (** 396-397, 507-508: the start of a run *)
  Definition restart (d : dmrg) : res dmrg :=
    rbind (mps_position (dmps d) 0%Z) (fun f => compute_right_envs (DMRG (fst f) (dmpo d) (lenvs d) (renvs d))).

  (** 577-585 [compute_energy] *)
  Definition compute_energy (d : dmrg) : res (dmrg * R) :=
    rbind (restart d) (fun d =>
    rbind (dget (renvs d) 0) (fun Rr => rbind (get (tens (dmps d)) 0) (fun t => rbind (get (dmpo d) 0) (fun W =>
    rbind (add_right_layer Rr t W) (fun X =>
    rbind (dget (lenvs d) 0) (fun L =>
    rbind (ncon_z [X; L] [[1; 2; 3]; [1; 2; 3]]%Z) (fun v => Ok (d, elt v [])))))))).

  Section Run.
    Variable opt : bool -> dmrg -> res (dmrg * R).
    (** [|final_energy - energy| < precision]; [None] is the initial 1E100 *)
    Variable converged : option R -> R -> bool.

    (** 423-431: optimise to the right while the centre is not the last site *)
    Fixpoint sweep_right (fuel : nat) (d : dmrg) (e : R) : res (dmrg * R) :=
      match centre (dmps d) with
      | None => Raise
      | Some c =>
          if c <? length (tens (dmps d)) - 1 then
            match fuel with
            | O => Fuel
            | S f => rbind (opt true d) (fun x => sweep_right f (fst x) (snd x))
            end
          else Ok (d, e)
      end.
    (** 435-443 *)
    Fixpoint sweep_left (fuel : nat) (d : dmrg) (e : R) : res (dmrg * R) :=
      match centre (dmps d) with
      | None => Raise
      | Some c =>
          if 0 <? c then
            match fuel with
            | O => Fuel
            | S f => rbind (opt false d) (fun x => sweep_left f (fst x) (snd x))
            end
          else Ok (d, e)
      end.
    (** 423-443: one sweep to the right and back *)
    Definition sweep (d : dmrg) (e : R) : res (dmrg * R) :=
      let n := length (tens (dmps d)) in
      rbind (sweep_right n d e) (fun x =>
      rbind (dposition (Z.of_nat (n - 1)) (fst x)) (fun d' => sweep_left n d' (snd x))).
    (** 447-456: at most [k] more sweeps *)
    Fixpoint sweeps (k : nat) (d : dmrg) (last : option R) (e : R) : res (dmrg * R) :=
      match k with
      | O => Ok (d, e)
      | S k' =>
          rbind (sweep d e) (fun x =>
          if converged last (snd x) then Ok x else sweeps k' (fst x) (Some (snd x)) (snd x))
      end.
    (** 344-456 [run_one_site], 458-575 [run_two_site].  In the first sweep one optimisation comes before the
        loop (410-421). *)
    Definition run (num_sweeps : nat) (d : dmrg) : res (dmrg * R) :=
      match num_sweeps with
      | O => compute_energy d
      | S _ =>
          rbind (restart d) (fun d =>
          rbind (dposition 0%Z d) (fun d =>
          rbind (opt true d) (fun x => sweeps num_sweeps (fst x) None (snd x))))
      end.
  End Run.
  Definition run_one_site := run optimize_1s.
  Definition run_two_site (max_bond_dim : option nat) := run (optimize_2s max_bond_dim).

  (** 31-72 [BaseDMRG.__init__] *)
  Definition init_dmrg (m : mps R) (ws : list (tensor R)) (lb rb : tensor R) : res dmrg :=
    guard (length (tens m) =? length ws)
    (match centre m with
     | None => Raise
     | Some _ => Ok (DMRG m ws [(0, lb)] [(length (tens m) - 1, rb)])
     end).
  (** 588-625 [FiniteDMRG.__init__]: boundaries of ones *)
  Definition ones (sh : list nat) : tensor R := Tensor sh (fun _ => r1).
  Definition finite_dmrg (m : mps R) (ws : list (tensor R)) : res dmrg :=
    rbind (get ws 0) (fun w0 => rbind (get (tens m) 0) (fun t0 =>
    rbind (get ws (length ws - 1)) (fun wn => rbind (get (tens m) (length (tens m) - 1)) (fun tn =>
    init_dmrg m ws (ones [nth 0 (shape w0) 0; nth 0 (shape t0) 0; nth 0 (shape t0) 0])
                   (ones [nth 1 (shape wn) 0; nth 2 (shape tn) 0; nth 2 (shape tn) 0]))))).

  (** one call of a method *)
  Inductive dop := Position (site : Z) | Opt1 (right : bool) | Opt2 (D : option nat) (right : bool) | LeftEnvs | RightEnvs | Restart.
  Definition exec (o : dop) (d : dmrg) : res dmrg :=
    match o with
    | Position s => dposition s d
    | Opt1 b => rbind (optimize_1s b d) (fun x => Ok (fst x))
    | Opt2 D b => rbind (optimize_2s D b d) (fun x => Ok (fst x))
    | LeftEnvs => compute_left_envs d
    | RightEnvs => compute_right_envs d
    | Restart => restart d
    end.
  Fixpoint execs (os : list dop) (d : dmrg) : res dmrg :=
    match os with
    | [] => Ok d
    | o :: r => rbind (exec o d) (execs r)
    end.
End Dmrg.
Arguments DMRG {R}.
Arguments dmrg R : clear implicits.
