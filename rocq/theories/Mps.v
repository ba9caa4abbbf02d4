(** * Mps: finite matrix product states,
    tensornetwork/matrixproductstates/base_mps.py and finite_mps.py.

    A state is the list [self.tensors] with [self.center_position]; the connector matrix of a [FiniteMPS] is
    [None].  Tensors are values: the in-place [/=] of [position] is a replacement, so that arrays shared with
    the caller are not modelled.  [ncon] is the model of Ncon.v; [iter] is the iteration order of the sets
    it builds.  [qrf], [svdf] are the matrix factorisations of the library below (they may raise), [nrm] is
    [backend.norm], [rdiv] the division, [nkeep relative D err s] the number of singular values kept
    (SvdTrunc.v has the rule).  Node contractions are written as [tensordot] over the connected axes, remaining
    axes in order, which is what C01 proves of [contract_between]; the dimension check of [^] is kept.
    Dtypes, backends and jit are not modelled. *)
From Coq Require Import List ZArith.
From Verif Require Import Prelude Res Algebra Tensor Ncon BlockSparse Backends.
Import ListNotations.
Set Implicit Arguments.
Unset Strict Implicit.
Local Open Scope nat_scope.

Section Mps.
  Context {R : cjr} {E : Type}.
  Variable iter : list Z -> list Z.
  Variable qrf : tensor R -> res (tensor R * tensor R).
  Variable svdf : tensor R -> res (tensor R * list R * tensor R).
  Variable nkeep : bool -> option nat -> option E -> list R -> nat.
  Variable err_ge1 err_zero : E -> bool.
  Variable nrm : tensor R -> R.
  Variable rdiv : R -> R -> R.

  (** base_mps.py:88-93: [tensors] and [center_position] *)
  Record mps := MPS { tens : list (tensor R); centre : option nat }.

  (** [ncon.ncon(ts, ns)] with integer labels *)
  Definition ncon_z (ts : list (tensor R)) (ns : list (list Z)) : res (tensor R) :=
    ncon iter true ts (map (map LInt) ns) None None.

  (** [self.tensors[n]] *)
  Definition get (ts : list (tensor R)) (n : nat) : res (tensor R) :=
    match nth_error ts n with Some t => Ok t | None => Raise end.

  (** backend.qr, backend.rq, backend.svd with a factorisation that may raise *)
  Definition qr_at (t : tensor R) (pivot : nat) : res (tensor R * tensor R) :=
    rbind (qrf (as_matrix t pivot)) (fun f => Ok (qr true (fun x => x) (fun _ => f) t pivot false)).
  Definition rq_at (t : tensor R) (pivot : nat) : res (tensor R * tensor R) :=
    rbind (qrf (adjoint (as_matrix t pivot))) (fun f => Ok (rq true (fun x => x) (fun _ => f) t pivot false)).
  Definition svd_at (relative : bool) (D : option nat) (err : option E) (t : tensor R) (pivot : nat)
      : res (tensor R * list R * tensor R * list R) :=
    rbind (svdf (as_matrix t pivot)) (fun f => Ok (svd (fun _ => f) (nkeep relative D err) t pivot)).

  (** [backend.diagflat(S)] *)
  Definition diagflat (s : list R) : tensor R :=
    Tensor [length s; length s] (fun ix => if nth 0 ix 0 =? nth 1 ix 0 then nth (nth 0 ix 0) s r0 else r0).
  (** [t /= Z] *)
  Definition tdiv (t : tensor R) (z : R) : tensor R := Tensor (shape t) (fun ix => rdiv (elt t ix) z).
  Definition conj_t (t : tensor R) : tensor R := Tensor (shape t) (fun ix => cj (elt t ix)).

  (** base_mps.py:238-245 [bond_dimension] *)
  Definition bond_dimension (ts : list (tensor R)) (bond : nat) : res nat :=
    if length ts <? bond then Raise
    else if bond <? length ts then rbind (get ts bond) (fun t => Ok (nth 0 (shape t) 0))
    else rbind (get ts bond) (fun t => Ok (nth 2 (shape t) 0)).

  (** 179-180, 204-205 [use_svd]; [bond_dimension] is evaluated only when [D] is given *)
  Definition use_svd (ts : list (tensor R)) (D : option nat) (err : option E) (bond : nat) : res bool :=
    rbind (match D with
           | None => Ok false
           | Some d => rbind (bond_dimension ts bond) (fun b => Ok (d <? b))
           end)
      (fun b => Ok (b || match err with Some _ => true | None => false end)).

  Section Position.
    Variables (normalize : bool) (D : option nat) (err : option E).

    (** 179-187 *)
    Definition split_right (ts : list (tensor R)) (n : nat) (t : tensor R) : res (tensor R * tensor R) :=
      rbind (use_svd ts D err (n + 1)) (fun b =>
      if b then rbind (svd_at true D err t 2) (fun f => let '(u, s, v, _) := f in
                rbind (ncon_z [diagflat s; v] [[-1; 1]; [1; -2]]%Z) (fun rest => Ok (u, rest)))
      else qr_at t 2).
    (** the body of the loop 178-197 *)
    Definition move_right (ts : list (tensor R)) (n : nat) : res (list (tensor R) * R) :=
      rbind (get ts n) (fun t =>
      rbind (split_right ts n t) (fun f => let '(isometry, rest) := f in
      let ts1 := set_nth n isometry ts in
      rbind (get ts1 (n + 1)) (fun u =>
      rbind (ncon_z [rest; u] [[-1; 1]; [1; -2; -3]]%Z) (fun w =>
      let z := nrm w in
      Ok (set_nth (n + 1) (if normalize then tdiv w z else w) ts1, z))))).

    (** 204-212 *)
    Definition split_left (ts : list (tensor R)) (n : nat) (t : tensor R) : res (tensor R * tensor R) :=
      rbind (use_svd ts D err n) (fun b =>
      if b then rbind (svd_at true D err t 1) (fun f => let '(u, s, v, _) := f in
                rbind (ncon_z [u; diagflat s] [[-1; 1]; [1; -2]]%Z) (fun rest => Ok (rest, v)))
      else rq_at t 1).
    (** the body of the loop 203-222 *)
    Definition move_left (ts : list (tensor R)) (n : nat) : res (list (tensor R) * R) :=
      rbind (get ts n) (fun t =>
      rbind (split_left ts n t) (fun f => let '(rest, isometry) := f in
      let ts1 := set_nth n isometry ts in
      rbind (get ts1 (n - 1)) (fun u =>
      rbind (ncon_z [u; rest] [[-1; -2; 1]; [1; -3]]%Z) (fun w =>
      let z := nrm w in
      Ok (set_nth (n - 1) (if normalize then tdiv w z else w) ts1, z))))).

    (** a python loop over [ns]; [z] is the local variable [Z] *)
    Fixpoint loop (step : list (tensor R) -> nat -> res (list (tensor R) * R)) (ns : list nat)
        (ts : list (tensor R)) (z : R) : res (list (tensor R) * R) :=
      match ns with
      | [] => Ok (ts, z)
      | n :: r => rbind (step ts n) (fun f => let '(ts', z') := f in loop step r ts' z')
      end.

    (** 139-226 [position]; the second component is the returned [Z] *)
    Definition position (m : mps) (site : Z) : res (mps * R) :=
      match centre m with
      | None => Raise
      | Some c =>
          guard (match err with Some e => negb (err_ge1 e) | None => true end)
          (guard (negb ((Z.of_nat (length (tens m)) <=? site) || (site <? 0))%Z)
          (let s := Z.to_nat site in
           if s =? c then
             rbind (get (tens m) c) (fun t =>
             let z := nrm t in
             Ok (MPS (if normalize then set_nth c (tdiv t z) (tens m) else tens m) (Some c), z))
           else if c <? s then
             rbind (loop move_right (seq c (s - c)) (tens m) r0) (fun f => let '(ts, z) := f in
             Ok (MPS ts (Some s), z))
           else
             rbind (loop move_left (rev (seq (s + 1) (c - s))) (tens m) r0) (fun f => let '(ts, z) := f in
             Ok (MPS ts (Some s), z))))
      end.
  End Position.

  Notation pos normalize m site := (position normalize None None m site).

  (** finite_mps.py:49-85 [__init__] with base_mps.py:72-93 *)
  Definition init (ts : list (tensor R)) (center_position : option Z) (canonicalize : bool) : res mps :=
    let n := Z.of_nat (length ts) in
    guard (match center_position with Some c => negb ((c <? 0) || (n <=? c))%Z | None => true end)
    (guard (negb (match center_position with Some _ => true | None => false end && negb canonicalize))
    (if canonicalize then
       let c := match center_position with Some c => c | None => 0%Z end in
       if (c =? n - 1)%Z then
         rbind (pos true (MPS ts (Some (Z.to_nat (n - 1)))) 0%Z) (fun f =>
         rbind (pos true (fst f) (n - 1)%Z) (fun g => Ok (fst g)))
       else
         rbind (pos true (MPS ts (Some 0)) (n - 1)%Z) (fun f =>
         rbind (pos true (fst f) c) (fun g => Ok (fst g)))
     else Ok (MPS ts (option_map Z.to_nat center_position)))).

  (** finite_mps.py:123-146 [canonicalize] *)
  Definition canonicalize (normalize : bool) (m : mps) : res (mps * R) :=
    let n := length (tens m) in
    match centre m with
    | Some p =>
        rbind (if n / 2 <=? p then pos normalize (MPS (tens m) (Some 0)) (Z.of_nat n - 1)%Z
               else pos normalize (MPS (tens m) (Some (n - 1))) 0%Z) (fun f =>
        pos normalize (fst f) (Z.of_nat p))
    | None => pos normalize (MPS (tens m) (Some (n - 1))) 0%Z
    end.

  (** base_mps.py:598-614 [apply_one_site_gate] *)
  Definition apply_one_site_gate (gate : tensor R) (site : Z) (m : mps) : res mps :=
    guard (rank gate =? 2)
    (guard (negb ((site <? 0) || (Z.of_nat (length (tens m)) <=? site))%Z)
    (let s := Z.to_nat site in
     rbind (get (tens m) s) (fun t =>
     rbind (ncon_z [gate; t] [[-2; 1]; [-1; 1; -3]]%Z) (fun w =>
     Ok (MPS (set_nth s w (tens m)) (centre m)))))).

  (** 550-556 [set_center_position] *)
  Definition set_center_position (c : option nat) (s1 s2 site : nat) : option nat :=
    match c with
    | Some c => if (c =? s1) || (c =? s2) then Some site else None
    | None => None
    end.

  (** 481-596 [apply_two_site_gate]; the discarded singular values stand for the returned [tw] *)
  Definition apply_two_site_gate (gate : tensor R) (site1 site2 : Z) (max_singular_values : option nat)
      (max_truncation_err : option E) (center_position : option Z) (relative : bool) (m : mps)
      : res (mps * list R) :=
    let n := Z.of_nat (length (tens m)) in
    guard (rank gate =? 4)
    (guard (negb ((site1 <? 0) || (n - 1 <=? site1))%Z)
    (guard (negb ((site2 <? 1) || (n <=? site2))%Z)
    (guard (negb (site2 <=? site1)%Z)
    (guard (site2 =? site1 + 1)%Z
    (guard (match center_position with Some c => (c =? site1) || (c =? site2) | None => true end)%Z
    (let s1 := Z.to_nat site1 in
     let s2 := Z.to_nat site2 in
     let truthy := match max_singular_values with Some d => negb (d =? 0) | None => false end
                   || match max_truncation_err with Some e => negb (err_zero e) | None => false end in
     guard (negb (truthy && negb (match centre m with Some c => (c =? s1) || (c =? s2) | None => false end)))
     (let svd_path := match max_truncation_err with Some _ => true | None => false end
                      || match max_singular_values with Some _ => true | None => false end in
      rbind (get (tens m) s1) (fun t1 =>
      rbind (get (tens m) s2) (fun t2 =>
      rbind (ncon_z [t1; t2; gate] [[-1; 1; 2]; [2; 3; -4]; [-2; -3; 1; 3]]%Z) (fun tensor =>
      let cp := match center_position with Some c => c | None => site1 end in
      rbind (if svd_path then
               rbind (svd_at relative max_singular_values max_truncation_err tensor 2) (fun f =>
               let '(u, s, v, tw) := f in
               if (cp =? site2)%Z then
                 rbind (ncon_z [diagflat s; v] [[-1; 1]; [1; -2; -3]]%Z) (fun r => Ok (u, r, s2, tw))
               else
                 rbind (ncon_z [u; diagflat s] [[-1; -2; 1]; [1; -3]]%Z) (fun l => Ok (l, v, s1, tw)))
             else if (cp =? site2)%Z then
               rbind (rq_at tensor 2) (fun f => let '(r, q) := f in Ok (r, q, s2, []))
             else
               rbind (qr_at tensor 2) (fun f => let '(q, r) := f in Ok (q, r, s1, [])))
      (fun f => let '(left_tensor, right_tensor, site, tw) := f in
      Ok (MPS (set_nth s2 right_tensor (set_nth s1 left_tensor (tens m)))
              (set_center_position (centre m) s1 s2 site), tw)))))))))))).

  (** base_mps.py:128-134 *)
  Definition left_transfer_operator (a l abar : tensor R) : res (tensor R) :=
    ncon_z [a; l; abar] [[1; 2; -1]; [1; 3]; [3; 2; -2]]%Z.
  Definition right_transfer_operator (b r bbar : tensor R) : res (tensor R) :=
    ncon_z [b; r; bbar] [[-1; 2; 1]; [1; 3]; [-2; 2; 3]]%Z.

  (** the connected axes of two nodes contracted, network_components.py [connect], [contract_between] *)
  Definition con (a b : tensor R) (ax bx : list nat) : res (tensor R) :=
    guard (list_eqb (gather 0 (shape a) ax) (gather 0 (shape b) bx)) (Ok (tensordot a b ax bx)).

  (** a dictionary with natural keys *)
  Definition dict := list (nat * tensor R).
  Definition dget (d : dict) (k : nat) : res (tensor R) :=
    match find (fun x => fst x =? k) d with Some x => Ok (snd x) | None => Raise end.

  (** [backend.eye(N)] *)
  Definition eye (n : nat) : tensor R := Tensor [n; n] (fun ix => if nth 0 ix 0 =? nth 1 ix 0 then r1 else r0).

  Definition zmax (l : list Z) (d : Z) : Z := fold_left Z.max l d.
  Definition zmin (l : list Z) (d : Z) : Z := fold_left Z.min l d.
  Definition zin (z : Z) (l : list Z) : bool := existsb (Z.eqb z) l.

  (** finite_mps.py:228-239: [left_env] to the left of site [n] is extended by the tensors [n], [n+1], ... *)
  Fixpoint left_loop (ts : list (tensor R)) (sites : list Z) (env : tensor R) (ns : list nat) (d : dict) : res dict :=
    match ns with
    | [] => Ok d
    | n :: r =>
        rbind (get ts n) (fun a =>
        rbind (con env a [0] [0]) (fun x =>
        rbind (con x (conj_t a) [0; 1] [0; 1]) (fun y =>
        left_loop ts sites y r (if zin (Z.of_nat n + 1) sites then (n + 1, y) :: d else d))))
    end.
  (** finite_mps.py:168-240 [left_envs] *)
  Definition left_envs (m : mps) (sites : list Z) : res dict :=
    match sites with
    | [] => Ok []
    | s0 :: sr =>
        let c := match centre m with Some c => c | None => 0 end in
        let n2 := zmax sr s0 in
        guard (forallb (fun s => s <=? Z.of_nat (length (tens m)))%Z sites)
        (guard (forallb (fun s => 0 <=? s)%Z sites)
        (rbind (mapr (fun s => rbind (get (tens m) (Z.to_nat s)) (fun t => Ok (Z.to_nat s, eye (nth 0 (shape t) 0))))
                 (filter (fun s => s <=? Z.of_nat c)%Z sites)) (fun d =>
         if (Z.of_nat c <? n2)%Z then
           rbind (get (tens m) c) (fun a =>
           rbind (con a (conj_t a) [0; 1] [0; 1]) (fun y =>
           left_loop (tens m) sites y (seq (c + 1) (Z.to_nat n2 - (c + 1)))
             (if zin (Z.of_nat c + 1) sites then (c + 1, y) :: d else d)))
         else Ok d)))
    end.

  (** finite_mps.py:302-313; the key of the dictionary is the site plus one, because the site may be -1 *)
  Fixpoint right_loop (ts : list (tensor R)) (sites : list Z) (env : tensor R) (ns : list nat) (d : dict) : res dict :=
    match ns with
    | [] => Ok d
    | n :: r =>
        rbind (get ts n) (fun a =>
        rbind (con env a [0] [2]) (fun x =>
        rbind (con x (conj_t a) [0; 2] [2; 1]) (fun y =>
        right_loop ts sites y r (if zin (Z.of_nat n - 1) sites then (n, y) :: d else d))))
    end.
  (** finite_mps.py:242-314 [right_envs] *)
  Definition right_envs (m : mps) (sites : list Z) : res dict :=
    match sites with
    | [] => Ok []
    | s0 :: sr =>
        let c := match centre m with Some c => c | None => length (tens m) - 1 end in
        let n1 := zmin sr s0 in
        guard (forallb (fun s => s <? Z.of_nat (length (tens m)))%Z sites)
        (guard (forallb (fun s => -1 <=? s)%Z sites)
        (rbind (mapr (fun s => rbind (get (tens m) (Z.to_nat s)) (fun t => Ok (Z.to_nat s + 1, eye (nth 2 (shape t) 0))))
                 (filter (fun s => Z.of_nat c <=? s)%Z sites)) (fun d =>
         if (n1 <? Z.of_nat c)%Z then
           rbind (get (tens m) c) (fun a =>
           rbind (con a (conj_t a) [2; 1] [2; 1]) (fun y =>
           right_loop (tens m) sites y (rev (seq (Z.to_nat (n1 + 1)) (c - Z.to_nat (n1 + 1))))
             (if zin (Z.of_nat c - 1) sites then (c, y) :: d else d)))
         else Ok d)))
    end.

  (** [L @ A @ O @ conj_A @ R] of 306-318, 395-406, 417-432 and 462-472, with [L[0] ^ A[0]], [L[1] ^ conj_A[0]],
      [O[1] ^ A[1]], [O[0] ^ conj_A[1]], [R[0] ^ A[2]], [R[1] ^ conj_A[2]] *)
  Definition absorb_left (l a o : tensor R) : res (tensor R) :=
    rbind (con l a [0] [0]) (fun x =>
    rbind (con x o [1] [1]) (fun y =>
    con y (conj_t a) [0; 2] [0; 1])).
  Definition sandwich (l a o r : tensor R) : res R :=
    rbind (absorb_left l a o) (fun x =>
    rbind (con x r [0; 1] [0; 1]) (fun y => Ok (elt y []))).
  (** [((R @ A) @ O1) @ conj_A], 368-377 *)
  Definition absorb_right (r a o : tensor R) : res (tensor R) :=
    rbind (con r a [0] [2]) (fun x =>
    rbind (con x o [2] [1]) (fun y =>
    con y (conj_t a) [0; 2] [2; 1])).

  (** base_mps.py:287-320 [measure_local_operator] *)
  Definition measure_local_operator (m : mps) (ops : list (tensor R)) (sites : list Z) : res (list R) :=
    guard (length ops =? length sites)
    (rbind (right_envs m sites) (fun rs =>
     rbind (left_envs m sites) (fun ls =>
     mapr (fun x => let '(o, site) := x in
       let s := Z.to_nat site in
       rbind (dget rs (s + 1)) (fun r =>
       rbind (dget ls s) (fun l =>
       rbind (get (tens m) s) (fun a => sandwich l a o r)))) (combine ops sites)))).

  (** 393-411: [n] from [site1 - 1] down to [n1]; the values are collected last first, which is the
      [reversed] of 413.  [fuel] counts the iterations left. *)
  Fixpoint left_corr (m : mps) (op2 : tensor R) (left_sites : list Z) (n1 : Z) (ls : dict) (r : tensor R)
      (n : Z) (fuel : nat) (c : list R) : res (list R) :=
    match fuel with
    | 0 => Ok c
    | S k =>
        let s := Z.to_nat (n mod Z.of_nat (length (tens m))) in
        rbind (get (tens m) s) (fun a =>
        rbind (if zin n left_sites then rbind (dget ls s) (fun l => rbind (sandwich l a op2 r) (fun v => Ok (v :: c)))
               else Ok c) (fun c' =>
        rbind (if (n1 <? n)%Z then right_transfer_operator a r (conj_t a) else Ok r) (fun r' =>
        left_corr m op2 left_sites n1 ls r' (n - 1)%Z k c')))
    end.
  (** 460-478: [n] from [site1 + 1] to [n2] *)
  Fixpoint right_corr (m : mps) (op2 : tensor R) (right_sites : list Z) (n2 : Z) (rs : dict) (l : tensor R)
      (n : Z) (fuel : nat) : res (list R) :=
    match fuel with
    | 0 => Ok []
    | S k =>
        let s := Z.to_nat (n mod Z.of_nat (length (tens m))) in
        rbind (get (tens m) s) (fun a =>
        rbind (if zin n right_sites then rbind (dget rs (s + 1)) (fun r => rbind (sandwich l a op2 r) (fun v => Ok [v]))
               else Ok []) (fun v =>
        rbind (if (n <? n2)%Z then left_transfer_operator a l (conj_t a) else Ok l) (fun l' =>
        rbind (right_corr m op2 right_sites n2 rs l' (n + 1)%Z k) (fun c => Ok (v ++ c)))))
    end.

  (** 322-479 [measure_two_body_correlator] *)
  Definition measure_two_body_correlator (m : mps) (op1 op2 : tensor R) (site1 : Z) (sites2 : list Z) : res (list R) :=
    let n := Z.of_nat (length (tens m)) in
    guard (negb (site1 <? 0)%Z)
    (let left_sites := filter (fun s => s <? site1)%Z sites2 in
     let right_sites := filter (fun s => site1 <? s)%Z sites2 in
     let s1 := Z.to_nat site1 in
     rbind (right_envs m (site1 :: map (fun s => s mod n)%Z right_sites)) (fun rs =>
     rbind (left_envs m (map (fun s => s mod n)%Z left_sites ++ [site1])) (fun ls =>
     rbind (get (tens m) s1) (fun a =>
     rbind (match left_sites with
            | [] => Ok []
            | x :: xs =>
                let n1 := zmin xs x in
                rbind (dget rs (s1 + 1)) (fun r0 =>
                rbind (absorb_right r0 a op1) (fun r =>
                left_corr m op2 left_sites n1 ls r (site1 - 1)%Z (Z.to_nat (site1 - n1)) []))
            end) (fun c1 =>
     rbind (if zin site1 sites2 then
              rbind (dget ls s1) (fun l =>
              rbind (dget rs (s1 + 1)) (fun r =>
              rbind (con op1 op2 [1] [0]) (fun o =>
              rbind (sandwich l a o r) (fun v => Ok [v]))))
            else Ok []) (fun c2 =>
     rbind (match right_sites with
            | [] => Ok []
            | x :: xs =>
                let n2 := zmax xs x in
                rbind (dget ls s1) (fun l0 =>
                rbind (absorb_left l0 a op1) (fun l =>
                right_corr m op2 right_sites n2 rs l (site1 + 1)%Z (Z.to_nat (n2 - site1))))
            end) (fun c3 =>
     Ok (c1 ++ c2 ++ c3)))))))).
End Mps.
Arguments MPS {R}.
Arguments mps R : clear implicits.
