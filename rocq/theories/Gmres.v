(** * Gmres: the GMRES solver of the jax backend (backends/jax/jitted_functions.py 1085-1491,
    backends/abstract_backend.py 566-615, backends/jax/jax_backend.py 579-705).

    Vectors and scalars as in Krylov.v.  jax arrays have a fixed size; an update out of bounds is dropped, a
    dynamic index that is read out of bounds is clamped. *)
From Coq Require Import Field.
From Verif Require Import Prelude Algebra Krylov KrylovFacts.
Set Implicit Arguments.
Unset Strict Implicit.

(** [jax.ops.index_update(l, i, x)]; dropped when out of bounds *)
Definition put {T} (l : list T) (i : nat) (x : T) : list T :=
  if i <? length l then firstn i l ++ x :: skipn (S i) l else l.

Section Gmres.
  Context {K : cfd} {V : ips K}.
  (** [A_mv(v, *A_args)] *)
  Variable A : V -> V.

  (** [givens_rotation] (1476-1491) *)
  Definition givens_rotation (v1 v2 : K) : out (K * K) :=
    obind (ofopt (csqrt (v1 *! v1 +! v2 *! v2))) (fun t =>
    if cdec t r0 then Undef else Val (v1 *! cinv t, cop v2 *! cinv t)).

  (** the loop of [apply_rotations] (1406-1440), from rotation i on, n rotations *)
  Fixpoint apply_rotations (col : list K) (givens : list (K * K)) (i n : nat) : list K :=
    match n with
    | 0 => col
    | S n =>
      let '(cs, sn) := nth i givens (r0, r0) in
      let a := nth i col r0 in
      let b := nth (S i) col r0 in
      apply_rotations (put (put col i (cs *! a -! sn *! b)) (S i) (sn *! a +! cs *! b)) givens (S i) n
    end.

  (** [apply_givens_rotation] (1442-1474) *)
  Definition apply_givens_rotation (col : list K) (givens : list (K * K)) (k : nat) : out (list K * list (K * K)) :=
    let col := apply_rotations col givens 0 k in
    let a := nth k col r0 in
    let b := nth (S k) col r0 in
    obind (givens_rotation a b) (fun cssn =>
    let '(cs, sn) := cssn in
    Val (put (put col k (cs *! a -! sn *! b)) (S k) r0, put givens k (cs, sn))).

  (** [jax.lax.scan(_gs_step, init=v, xs=V.T)] (1370-1390): the remainder and the overlaps *)
  Fixpoint gs_scan (r : V) (vs_ : list V) : V * list K :=
    match vs_ with
    | [] => (r, [])
    | v :: vs_ =>
      let h := ip v r in
      let (r', hs) := gs_scan (vsub r (vs h v)) vs_ in (r', h :: hs)
    end.

  (** [kth_arnoldi_step] (1351-1401): V with its column k+1 filled in, and column k of H *)
  Definition arnoldi_step (k : nat) (vs_ : list V) (tol : K) : out (list V * list K) :=
    let (v_new, h) := gs_scan (A (nth k vs_ vz)) vs_ in
    obind (nrm v_new) (fun n =>
    obind (if clt tol n then vdiv v_new n else Val vz) (fun r_new =>
    Val (put vs_ (S k) r_new, put h (S k) n))).

  (** the error estimate is kept as numerator and denominator *)
  Definition over (tol : K) (err : K * K) : bool :=
    let (a, d) := err in
    if cdec d r0 then (if cdec a r0 then false (* nan *) else true (* inf *)) else clt tol (a *! cinv d).

  (** what the loop changes: V, the columns of R, beta_vec, err, givens *)
  Record carry := Carry {
    g_v : list V; g_r : list (list K); g_b : list K; g_e : K * K; g_g : list (K * K) }.

  (** [gmres_krylov_work] (1280-1304).  In the iteration k = n_kry (see [krylov_loop]) all indices of columns are
      out of bounds: V, R and givens do not change (what is computed for them is dropped) and givens[:, k] is read
      at n_kry - 1. *)
  Definition krylov_work (n_kry : nat) (tol b_norm : K) (k : nat) (c : carry) : out carry :=
    obind (if k <? n_kry then
             obind (arnoldi_step k (g_v c) tol) (fun vh =>
             obind (apply_givens_rotation (snd vh) (g_g c) k) (fun rg =>
             Val (fst vh, put (g_r c) k (fst rg), snd rg)))
           else Val (g_v c, g_r c, g_g c)) (fun x =>
    let '(vs_, r, g) := x in
    let '(cs, sn) := nth (Nat.min k (n_kry - 1)) g (r0, r0) in
    let bk := nth k (g_b c) r0 in
    let sn := sn *! bk in
    obind (ofopt (csqrt (cj sn *! sn))) (fun a =>
    Val (Carry vs_ r (put (put (g_b c) k (cs *! bk)) (S k) sn) (a, b_norm) g))).

  (** the while loop (1306-1340).  [gmres_krylov_loop_condition] unpacks the carry in the wrong order, so that its
      [k], [n_kry], [err], [tol] are tol, err, n_kry, k: the loop goes on when [tol < err] and [n_kry >= k]. *)
  Fixpoint krylov_loop (n_kry : nat) (tol b_norm : K) (fuel k : nat) (c : carry) : out (nat * carry) :=
    match fuel with
    | 0 => Val (k, c)
    | S fuel =>
      if over tol (g_e c) && (k <=? n_kry) then
        obind (krylov_work n_kry tol b_norm k c) (krylov_loop n_kry tol b_norm fuel (S k))
      else Val (k, c)
    end.

  (** [gmres_krylov] (1224-1343).  The quotient r / beta is not used when the loop does not start. *)
  Definition krylov_start (n_kry : nat) (v : V) (beta : K) : carry :=
    Carry (put (repeat vz (S n_kry)) 0 v) (repeat (repeat r0 (S n_kry)) n_kry) (put (repeat r0 (S n_kry)) 0 beta)
      (beta, r1) (repeat (r0, r0) n_kry).
  Definition gmres_krylov (n_kry : nat) (r : V) (beta tol b_norm : K) : out (nat * carry) :=
    obind (if over tol (beta, r1) then vdiv r beta else Val vz) (fun v =>
    krylov_loop n_kry tol b_norm (S n_kry) 0 (krylov_start n_kry v beta)).

  (** [jax.scipy.linalg.solve_triangular] of the upper triangle of R (columns) *)
  Fixpoint back_subst (r : list (list K)) (b : list K) (i : nat) (y : list K) : out (list K) :=
    match i with
    | 0 => Val y
    | S i =>
      let s := nsum (length y) (fun j => nth i (nth (S i + j) r []) r0 *! nth j y r0) in
      let d := nth i (nth i r []) r0 in
      if cdec d r0 then Undef else back_subst r b i ((nth i b r0 -! s) *! cinv d :: y)
    end.

  (** [gmres_update] (1203-1222) *)
  Definition gmres_update (n_kry k : nat) (c : carry) (x0 : V) : out V :=
    let q := Nat.min k n_kry in
    obind (back_subst (g_r c) (g_b c) q []) (fun y =>
    Val (va x0 (vsum q (fun i => vs (nth i y r0) (nth i (g_v c) vz))))).

  (** [gmres] with [gmres_residual] (1155-1201): done, beta, x and (not returned by the code) k and the carry *)
  Definition gmres (b x : V) (n_kry : nat) (x0 : V) (tol b_norm : K) : out (bool * K * V * (nat * carry)) :=
    let r := vsub b (A x) in
    obind (nrm r) (fun beta =>
    obind (gmres_krylov n_kry r beta tol b_norm) (fun kc =>
    obind (gmres_update n_kry (fst kc) (snd kc) x0) (fun x =>
    Val (fst kc <? n_kry - 1, beta, x, kc)))).

  (** the loop of [gmres_m] (1148-1152): [more] restarts are left after this one *)
  Fixpoint restarts (b x0 : V) (n_kry : nat) (tol b_norm : K) (more n_iter : nat) (x : V) :
    out (V * K * nat * bool * (nat * carry)) :=
    obind (gmres b x n_kry x0 tol b_norm) (fun g =>
    let '(done, beta, x, kc) := g in
    match more with
    | 0 => Val (x, beta, n_iter, done, kc)
    | S more => if (done : bool) then Val (x, beta, n_iter, done, kc) else restarts b x0 n_kry tol b_norm more (S n_iter) x
    end).

  (** [gmres_m] (1112-1153); [size] is [b.size] *)
  Definition gmres_tol (tol atol b_norm : K) : K := if clt (tol *! b_norm) atol then atol else tol *! b_norm.
  Definition gmres_m (size : nat) (b x0 : V) (tol atol : K) (nkv maxiter : nat) : out (V * K * nat * bool * (nat * carry)) :=
    obind (nrm b) (fun b_norm =>
    match maxiter with
    | 0 => Err (* UnboundLocalError *)
    | S more => restarts b x0 (Nat.min nkv size) (gmres_tol tol atol b_norm) b_norm more 0 x0
    end).

  (** the checks of [AbstractBackend.gmres] (566-615) and [JaxBackend._gmres] (685-705): the solution and info *)
  Definition jax_gmres (size : nat) (b : V) (x0 : option V) (tol : K) (atol : option K) (nkv maxiter : nat) : out (V * nat) :=
    let x0 := match x0 with Some x => x | None => vz end in
    let nkv := if size <? nkv then size else nkv in
    if clt tol r0 then Err
    else if match atol with Some a => clt a r0 | None => false end then Err
    else if nkv =? 0 then Err
    else
      obind (gmres_m size b x0 tol (match atol with Some a => a | None => tol end) nkv maxiter) (fun r =>
      let '(x, _, n_iter, converged, _) := r in
      Val (x, if (converged : bool) then 0 else n_iter)).
End Gmres.
