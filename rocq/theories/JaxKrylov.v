(** * JaxKrylov: Arnoldi and Lanczos factorisations, implicit restarts and eigensolvers of the jax backend
    (backends/jax/jitted_functions.py 23-1083, backends/jax/jax_backend.py 234-578).

    Vectors, scalars, [out] as in Krylov.v; [put] (updates out of bounds are dropped) as in Gmres.v.  Left out: jit,
    precision, dtypes (the scalars are those of the promoted complex type), the caches, rounding. *)
From Coq Require Import Field.
From Verif Require Import Prelude Algebra Krylov KrylovFacts Gmres.
Set Implicit Arguments.
Unset Strict Implicit.

(** [H.at[:, i].set(c)] *)
Definition set_col {K : cfd} (H : mx K) (i : nat) (c : list K) : mx K :=
  map (fun p => put (snd p) i (nth (fst p) c r0)) (combine (seq 0 (length H)) H).
(** [H.at[i, j].set(x)] *)
Definition put_ent {K : cfd} (H : mx K) (i j : nat) (x : K) : mx K := put H i (put (nth i H []) j x).

Section Jax.
  Context {K : cfd} {V : ips K}.
  (** [matvec(x, *args)] *)
  Variable A : V -> V.

  (** ** [iterative_classical_gram_schmidt] (26-54) *)
  Definition cgs_pass (rows : list V) (vec : V) : V * list K :=
    let ov := map (fun r => ip r vec) rows in
    (vsub vec (vsum (length rows) (fun i => vs (nth i ov r0) (nth i rows vz))), ov).
  Fixpoint icgs (iterations : nat) (rows : list V) (vec : V) (overlaps : list K) : V * list K :=
    match iterations with
    | 0 => (vec, overlaps)
    | S n => let (vec, ov) := cgs_pass rows vec in icgs n rows vec (map (fun p => fst p +! snd p) (combine overlaps ov))
    end.
  Definition gram_schmidt (rows : list V) (vec : V) : V * list K := icgs 2 rows vec (repeat r0 (length rows)).

  (** [(i >= arange(Vm.shape[0]))[:, None] * Vm] *)
  Definition mask (i : nat) (Vm : list V) : list V :=
    map (fun p => if fst p <=? i then snd p else vz) (combine (seq 0 (length Vm)) Vm).
  (** [cond(norm > tol, w / norm, w * 0.0)] *)
  Definition unit_or_zero (tol : K) (w : V) (norm : K) : out V := if clt tol norm then vdiv w norm else Val vz.

  (** ** [_arnoldi_fact] (405-537): Vm, H, residual, norm, it, [norm < tol] *)
  Fixpoint arnoldi_loop (ncv : nat) (tol : K) (fuel : nat) (Vm : list V) (H : mx K) (previous : V) (norm : K) (i : nat) :
    out (list V * mx K * V * K * nat) :=
    match fuel with
    | 0 => Val (Vm, H, previous, norm, i)
    | S fuel =>
      if (i <? ncv) && clt tol norm then
        let (w, ov) := gram_schmidt (mask i Vm) (A previous) in
        let H := set_col H i ov in
        obind (nrm w) (fun n => obind (unit_or_zero tol w n) (fun v =>
        let (Vm, H) := if i <? ncv - 1 then (put Vm (S i) v, put_ent H (S i) i n) else (Vm, H) in
        arnoldi_loop ncv tol fuel Vm H v n (S i)))
      else Val (Vm, H, previous, norm, i)
    end.
  Definition arnoldi_fact (v0 : V) (Vm : list V) (H : mx K) (start ncv : nat) (tol : K) :
    out (list V * mx K * V * K * nat * bool) :=
    obind (nrm v0) (fun Z => obind (unit_or_zero tol v0 Z) (fun v =>
    let Vm := put Vm start v in
    let H := if 0 <? start then put_ent H start (start - 1) Z else H in
    obind (arnoldi_loop ncv tol (ncv - start) Vm H v Z start) (fun r =>
    let '(Vm, H, residual, norm, it) := r in
    Val (Vm, H, residual, norm, it, clt norm tol)))).

  (** ** [_lanczos_fact] (249-348): Vm, alphas, betas, residual, norm, it, [norm < tol] *)
  Fixpoint lanczosf_loop (ncv : nat) (tol : K) (fuel : nat) (Vm : list V) (al be : list K) (previous : V) (norm : K) (i : nat) :
    out (list V * list K * list K * V * K * nat) :=
    match fuel with
    | 0 => Val (Vm, al, be, previous, norm, i)
    | S fuel =>
      if (i <? ncv) && clt tol norm then
        let (w, ov) := gram_schmidt (mask i Vm) (A previous) in
        let al := put al i (nth i ov r0) in
        obind (nrm w) (fun n => obind (unit_or_zero tol w n) (fun v =>
        let (Vm, be) := if i <? ncv - 1 then (put Vm (S i) v, put be i n) else (Vm, be) in
        lanczosf_loop ncv tol fuel Vm al be v n (S i)))
      else Val (Vm, al, be, previous, norm, i)
    end.
  Definition lanczos_fact (v0 : V) (Vm : list V) (al be : list K) (start ncv : nat) (tol : K) :
    out (list V * list K * list K * V * K * nat * bool) :=
    obind (nrm v0) (fun Z => obind (unit_or_zero tol v0 Z) (fun v =>
    let Vm := put Vm start v in
    let be := if 0 <? start then put be (start - 1) Z else be in
    obind (lanczosf_loop ncv tol (ncv - start) Vm al be v Z start) (fun r =>
    let '(Vm, al, be, residual, norm, it) := r in
    Val (Vm, al, be, residual, norm, it, clt norm tol)))).
  (** [diag(alphas) + diag(betas, -1) + diag(betas.conj(), 1)] (910-911, 1051-1052) *)
  Definition hmat (al be : list K) : mx K :=
    mkmx (length al) (length al) (fun i j =>
      (if i =? j then nth i al r0 else r0) +! (if i =? S j then nth j be r0 else r0) +! (if j =? S i then cj (nth i be r0) else r0)).

  (** ** [shifted_QR] (585-608) *)
  Variable qr : mx K -> option (mx K * mx K).
  Definition shift_step (Vm : list V) (Hm : mx K) (q : list K) (s : K) : out (list V * mx K * list K) :=
    let n := length Hm in
    obind (ofopt (qr (mkmx n n (fun i j => ent Hm i j -! (if i =? j then s else r0))))) (fun QR =>
    let (Q, R) := QR in
    Val (map (fun j => vsum n (fun i => vs (ent Q i j) (nth i Vm vz))) (seq 0 n),
         mkmx n n (fun i j => nsum n (fun l => ent R i l *! ent Q l j) +! (if i =? j then s else r0)),
         map (fun j => nsum n (fun i => nth i q r0 *! ent Q i j)) (seq 0 n))).
  Fixpoint shift_steps (Vm : list V) (Hm : mx K) (q : list K) (shifts : list K) : out (list V * mx K * list K) :=
    match shifts with
    | [] => Val (Vm, Hm, q)
    | s :: shifts => obind (shift_step Vm Hm q s) (fun r => let '(Vm, Hm, q) := r in shift_steps Vm Hm q shifts)
    end.
  (** The reads [Vm[numeig]], [Hm[numeig, numeig - 1]], [q[numeig - 1]] are clamped, index -1 is the last one. *)
  Definition shifted_qr (Vm : list V) (Hm : mx K) (fm : V) (shifts : list K) (numeig : nat) : out (list V * mx K * V) :=
    let n := length Hm in
    obind (shift_steps Vm Hm (put (repeat r0 n) (n - 1) r1) shifts) (fun r =>
    let '(Vm, Hm, q) := r in
    let i := Nat.min numeig (n - 1) in
    let j := if numeig =? 0 then n - 1 else numeig - 1 in
    Val (Vm, Hm, va (vs (ent Hm i j) (nth i Vm vz)) (vs (nth j q r0) fm))).

  (** ** [get_vectors] (612-630) *)
  Fixpoint get_vectors (Vm : list V) (U : mx K) (inds : list nat) : out (list V) :=
    match inds with
    | [] => Val []
    | n :: inds =>
      let s := vsum (length Vm) (fun m => vs (ent U m n) (nth m Vm vz)) in
      obind (nrm s) (fun z => obind (vdiv s z) (fun x => obind (get_vectors Vm U inds) (fun xs => Val (x :: xs))))
    end.
End Jax.

(** ** The sorting functions (542-580): real part, absolute value, value; compared through x + conj x, |x|^2, x. *)
Inductive target := LR | LM | LA | SA.
Section Sort.
  Context {K : cfd}.
  Definition sort_key (w : target) (x : K) : K :=
    match w with LR => x +! cj x | LM => cj x *! x | LA | SA => x end.
  (** [argsort(kind='stable')]: insertion of index i from the right, before the first larger one *)
  Fixpoint insert_ix (key : nat -> K) (i : nat) (l : list nat) : list nat :=
    match l with
    | [] => [i]
    | j :: l => if clt (key i) (key j) then i :: j :: l else j :: insert_ix key i l
    end.
  Definition argsort (key : nat -> K) (n : nat) : list nat := fold_left (fun l i => insert_ix key i l) (seq 0 n) [].
  Definition sort_inds (w : target) (evals : list K) : list nat :=
    let l := argsort (fun i => sort_key w (nth i evals r0)) (length evals) in
    match w with SA => l | _ => rev l end.
  (** [evals[inds][-p:]]; for p = 0 this is the whole list *)
  Definition last_p {T} (p : nat) (l : list T) : list T := if p =? 0 then l else skipn (length l - p) l.
  Definition sort_shifts (w : target) (p : nat) (evals : list K) : list K :=
    last_p p (map (fun i => nth i evals r0) (sort_inds w evals)).
End Sort.

Section Restart.
  Context {K : cfd} {V : ips K}.
  Variable A : V -> V.
  Variable qr : mx K -> option (mx K * mx K).
  (** [jax.numpy.linalg.eig] respectively [eigh] *)
  Variable eig : mx K -> option (list K * mx K).
  (** [finfo(dtype).eps] *)
  Variable eps : K.
  Variables (ncv numeig : nat) (which : target) (tol : K).

  Definition cabs (x : K) : out K := ofopt (csqrt (cj x *! x)).
  Definition frob (n m : nat) (H : mx K) : out K :=
    ofopt (csqrt (nsum n (fun i => nsum m (fun j => cj (ent H i j) *! ent H i j)))).
  Definition cmax (x y : K) : K := if clt x y then y else x.
  Fixpoint all_small (beta hn : K) (l : list (K * K)) : out bool :=
    match l with
    | [] => Val true
    | (th, u) :: l =>
      obind (cabs th) (fun a => obind (cabs u) (fun b => obind (all_small beta hn l) (fun r =>
      Val (clt (beta *! b) (cmax (eps *! hn) (a *! tol)) && r))))
    end.
  (** [_check_eigvals_convergence_eig] (644-657): all rows and columns of Hk, row numeig - 1 of the first numeig eigenvectors *)
  Definition check_eig (beta : K) (H : mx K) : out bool :=
    obind (ofopt (eig H)) (fun eu => obind (frob ncv ncv H) (fun hn =>
    all_small beta hn (map (fun n => (nth n (fst eu) r0, ent (snd eu) (if numeig =? 0 then ncv - 1 else numeig - 1) n)) (seq 0 numeig)))).
  (** [_check_eigvals_convergence_eigh] (632-642) of [Hk[:numeig, :numeig]] *)
  Definition check_eigh (beta : K) (H : mx K) : out bool :=
    let H := mkmx numeig numeig (ent H) in
    obind (frob numeig numeig H) (fun hn => obind (ofopt (eig H)) (fun eu =>
    all_small beta hn (map (fun n => (nth n (fst eu) r0, ent (snd eu) (numeig - 1) n)) (seq 0 numeig)))).

  (** what the outer loops carry: Vm, H, fm, numits, ar_converged, converged; [r_tie] (not in the code) tells whether
      the norm of a final residual was equal to tol.  (For numeig = 0 the code also reads and writes at index -1.) *)
  Record rcarry := RC { r_v : list V; r_h : mx K; r_f : V; r_n : nat; r_ar : bool; r_conv : bool; r_tie : bool }.
  Definition tie (norm : K) : bool := negb (clt norm tol) && negb (clt tol norm).

  (** *** [implicitly_restarted_arnoldi_method] (700-871) *)
  (** [Vk.at[numeig:, :].set(0.0)], [Hk.at[numeig:, :].set(0.0)], [Hk.at[:, numeig:].set(0.0)] *)
  Definition cut_v (Vk : list V) : list V := firstn numeig Vk ++ repeat vz (length Vk - numeig).
  Definition cut_h (Hk : mx K) : mx K :=
    mkmx (length Hk) (length Hk) (fun i j => if (i <? numeig) && (j <? numeig) then ent Hk i j else r0).
  Definition outer_arnoldi (c : rcarry) : out rcarry :=
    obind (ofopt (eig (r_h c))) (fun eu =>
    obind (shifted_qr qr (r_v c) (r_h c) (r_f c) (sort_shifts which (ncv - numeig) (fst eu)) numeig) (fun r =>
    let '(Vk, Hk, fk) := r in
    obind (nrm fk) (fun beta => obind (check_eig beta Hk) (fun converged =>
    let Vk := cut_v Vk in
    let Hk := cut_h Hk in
    if (converged : bool) then Val (RC Vk Hk fk numeig false true (r_tie c))
    else obind (arnoldi_fact A fk Vk Hk numeig ncv tol) (fun a =>
      let '(Vm, Hm, residual, norm, numits, ar) := a in
      Val (RC Vm Hm (vs norm residual) numits ar false (r_tie c || tie norm))))))).
  Fixpoint outer_loop (body : rcarry -> out rcarry) (fuel : nat) (c : rcarry) : out rcarry :=
    match fuel with
    | 0 => Val c
    | S fuel => if r_conv c || r_ar c then Val c else obind (body c) (outer_loop body fuel)
    end.
  (** [(numits > arange)[:, None] * Hm * (numits > arange)[None, :]]; the update of [Hm[numits, numits - 1]] before has
      no effect on it *)
  Definition mask_h (n numits : nat) (H : mx K) : mx K :=
    mkmx n n (fun i j => if (i <? numits) && (j <? numits) then ent H i j else r0).
  Definition ir_finish (c : rcarry) : out (list K * list V * nat * rcarry) :=
    obind (ofopt (eig (mask_h ncv (r_n c) (r_h c)))) (fun eu =>
    let inds := firstn numeig (sort_inds which (fst eu)) in
    obind (get_vectors (r_v c) (snd eu) inds) (fun xs =>
    Val (map (fun i => nth i (fst eu) r0) inds, xs, r_n c, c))).
  (** [size] is the number of entries of [initial_state]; the last part of the result is not returned by the code *)
  Definition ir_arnoldi (size maxiter : nat) (init : V) : out (list K * list V * nat * rcarry) :=
    if negb ((numeig <=? ncv) && (ncv <=? size)) then Err
    else if match which with LR | LM => false | _ => true end then Err
    else
      obind (arnoldi_fact A init (repeat vz ncv) (mkmx ncv ncv (fun _ _ => r0)) 0 ncv tol) (fun a =>
      let '(Vm, Hm, residual, norm, numits, ar) := a in
      obind (outer_loop outer_arnoldi (maxiter - 1) (RC Vm Hm (vs norm residual) numits ar false (tie norm))) ir_finish).

  (** *** [implicitly_restarted_lanczos_method] (915-1081): [r_h] is the matrix of alphas and betas *)
  Definition outer_lanczos (c : rcarry) : out rcarry :=
    obind (ofopt (eig (r_h c))) (fun eu =>
    obind (shifted_qr qr (r_v c) (r_h c) (r_f c) (sort_shifts which (ncv - numeig) (fst eu)) numeig) (fun r =>
    let '(Vk, Hk, fk) := r in
    let al := map (fun i => if i <? numeig then ent Hk i i else r0) (seq 0 (length Hk)) in
    let be := map (fun i => if i <? numeig - 1 then ent Hk (S i) i else r0) (seq 0 (length Hk - 1)) in
    obind (nrm fk) (fun beta => obind (check_eigh beta Hk) (fun converged =>
    if (converged : bool) then Val (RC Vk (hmat al be) fk numeig false true (r_tie c))
    else obind (lanczos_fact A fk Vk al be numeig ncv tol) (fun a =>
      let '(Vm, al, be, residual, norm, numits, ar) := a in
      Val (RC Vm (hmat al be) (vs norm residual) numits ar false (r_tie c || tie norm))))))).
  Definition ir_lanczos (size maxiter : nat) (init : V) : out (list K * list V * nat * rcarry) :=
    if (ncv <=? numeig) && (numeig <? size) then Err
    else if size <? numeig then Err
    else if match which with LR => true | _ => false end then Err
    else
      obind (lanczos_fact A init (repeat vz ncv) (repeat r0 ncv) (repeat r0 (ncv - 1)) 0 ncv tol) (fun a =>
      let '(Vm, al, be, residual, norm, numits, ar) := a in
      obind (outer_loop outer_lanczos (maxiter - 1) (RC Vm (hmat al be) (vs norm residual) numits ar false (tie norm))) ir_finish).
  (** the checks of [JaxBackend.eigs] (310-316), [JaxBackend.eigsh] (424-430) and [eigsh] *)
  Definition jax_eigs (size maxiter : nat) (init : V) :=
    if match which with LR | LM => false | _ => true end then Err
    else if ncv <? numeig then Err
    else ir_arnoldi size maxiter init.
  Definition jax_eigsh (size maxiter : nat) (init : V) :=
    if match which with LR => true | _ => false end then Err
    else if ncv <? numeig then Err
    else ir_lanczos size maxiter init.
End Restart.
