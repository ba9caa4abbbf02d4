(** * C51: Krylov factorisations, implicit restarts and eigensolvers of the jax backend *)
From Coq Require Import QArith Qcanon ZArith Permutation.
From Verif Require Import Prelude Algebra Krylov KrylovFacts KrylovSpec KrylovInst KrylovExamples Gmres GmresSpec GmresExamples
  JaxKrylov JaxKrylovSpec JaxKrylovArn JaxKrylovShift JaxKrylovSort JaxKrylovFinal JaxKrylovExamples JaxKrylovTop JaxKrylovConv.
Open Scope nat_scope.

Section C51.
  Context {K : cfd} {V : ips K}.
  Variable A : V -> V.

  (** An Arnoldi factorisation from scratch: the first [it] rows of Vm and H satisfy A V = V H + f e^T with V an
      orthonormal basis of the Krylov space of v0; norm is |f|, the residual is f / norm (0 if norm is not larger than
      tol); fewer than num_krylov_vecs steps are made only if norm is not larger than tol. *)
  Theorem C51_arnoldi v0 N tol Vm H residual norm it conv : linear A ->
    arnoldi_fact A v0 (repeat vz N) (mkmx N N (fun _ _ => r0)) 0 N tol = Val (Vm, H, residual, norm, it, conv) ->
    fact_spec A N tol v0 Vm H residual norm it conv.
  Proof. exact (@arnoldi_top K V A v0 N tol Vm H residual norm it conv). Qed.

  (** The same for Lanczos factorisations of hermitian operators, H = tridiag(betas, alphas, conj betas). *)
  Theorem C51_lanczos_fact v0 N tol Vm al be residual norm it conv : hermitian A ->
    lanczos_fact A v0 (repeat vz N) (repeat r0 N) (repeat r0 (N - 1)) 0 N tol = Val (Vm, al, be, residual, norm, it, conv) ->
    fact_spec A N tol v0 Vm (hmat al be) residual norm it conv.
  Proof. exact (@lanczos_top K V A v0 N tol Vm al be residual norm it conv). Qed.

  (** A factorisation with [start] vectors is continued: the vectors are kept, the result is a factorisation. *)
  Theorem C51_continue v0 N tol Vm H start Vm' H' residual norm it conv :
    length Vm = N -> square N H -> start <= N -> arnoldi_fac A (firstn start Vm) H v0 ->
    (forall i j, start <= i -> j < start -> ent H i j = r0) ->
    arnoldi_fact A v0 Vm H start N tol = Val (Vm', H', residual, norm, it, conv) ->
    start <= it /\ it <= N /\ firstn start Vm' = firstn start Vm /\ (it = N \/ clt tol norm = false) /\
    exists f, arnoldi_fac A (firstn it Vm') H' f /\ csqrt (ip f f) = Some norm /\ (clt tol norm = true -> f = vs norm residual).
  Proof. exact (@continue_top K V A v0 N tol Vm H start Vm' H' residual norm it conv). Qed.

  (** n - numeig shifted QR steps: the first numeig vectors, the leading block of H and fk are a factorisation again,
      all n vectors are orthonormal, and the first one is (A - s_1) ... (A - s_p) v up to a factor. *)
  Theorem C51_shifted_qr qr n numeig Vm Hm fm shifts Vk Hk fk : linear A -> qr_contract qr ->
    length Vm = n -> square n Hm -> arnoldi_fac A Vm Hm fm -> 0 < numeig -> numeig < n -> length shifts = n - numeig ->
    shifted_qr qr Vm Hm fm shifts numeig = Val (Vk, Hk, fk) ->
    arnoldi_fac A (firstn numeig Vk) Hk fk /\ orthonormal Vk /\ exists c, filter_ A shifts (nth 0 Vm vz) = vs c (nth 0 Vk vz).
  Proof. exact (@shifted_top K V A qr n numeig Vm Hm fm shifts Vk Hk fk). Qed.

  (** [eigs]: the factorisation it ends with has numits vectors, the first a polynomial in A of the initial state; its
      residual is shorter than tol if ar_converged, numits is numeig if converged, and num_krylov_vecs otherwise; the
      numeig eigenvalues are in the order asked for, and every nonzero one (all of them for numits = num_krylov_vecs)
      comes with a vector x of length 1, A x = theta x + c f, |c| <= 1. *)
  Theorem C51_eigs qr eig eps ncv numeig which tol init size maxiter vals xs numits c :
    linear A -> qr_contract qr -> eig_contract eig -> 0 < numeig -> numeig < ncv ->
    jax_eigs A qr eig eps ncv numeig which tol size maxiter init = Val (vals, xs, numits, c) -> r_tie c = false ->
    exists kv H f, length kv = numits /\ numits <= ncv /\ arnoldi_fac A kv H f /\
      (0 < numits -> exists shifts a, filter_ A shifts init = vs a (nth 0 kv vz)) /\
      (r_ar c = true -> shorter f tol) /\ (r_conv c = true -> numits = numeig) /\ (r_ar c = false -> r_conv c = false -> numits = ncv) /\
      length vals = numeig /\ length xs = numeig /\ (forall i j, i < j -> j < numeig -> before which (nth i vals r0) (nth j vals r0)) /\
      forall j, j < numeig -> nth j vals r0 <> r0 \/ numits = ncv -> ritz_approx A kv f (nth j vals r0) (nth j xs vz).
  Proof. exact (@eigs_main K V A qr eig eps ncv numeig which tol init size maxiter vals xs numits c). Qed.

  (** [eigsh] of a hermitian operator: moreover the vectors are orthonormal, and for numits = num_krylov_vecs the
      j-th eigenvalue bounds the Rayleigh quotients of the space that are orthogonal to the earlier vectors. *)
  Theorem C51_eigsh qr eig eps ncv numeig which tol init size maxiter vals xs numits c :
    hermitian A -> qr_contract qr -> eigh_contract eig -> 0 < numeig -> numeig < ncv ->
    jax_eigsh A qr eig eps ncv numeig which tol size maxiter init = Val (vals, xs, numits, c) -> r_tie c = false ->
    exists kv H f, length kv = numits /\ numits <= ncv /\ arnoldi_fac A kv H f /\
      (0 < numits -> exists shifts a, filter_ A shifts init = vs a (nth 0 kv vz)) /\
      (r_ar c = true -> shorter f tol) /\ (r_conv c = true -> numits = numeig) /\ (r_ar c = false -> r_conv c = false -> numits = ncv) /\
      length vals = numeig /\ length xs = numeig /\ (forall i j, i < j -> j < numeig -> before which (nth i vals r0) (nth j vals r0)) /\
      (forall j, j < numeig -> nth j vals r0 <> r0 \/ numits = ncv -> ritz_approx A kv f (nth j vals r0) (nth j xs vz)) /\
      (forall i j, i < numeig -> j < numeig -> nth i vals r0 <> r0 \/ numits = ncv -> nth j vals r0 <> r0 \/ numits = ncv ->
         ip (nth i xs vz) (nth j xs vz) = delta_ i j) /\
      (numits = ncv -> forall j y, j < numeig -> in_span kv y -> (forall i, i < j -> ip (nth i xs vz) y = r0) -> bounds which A (nth j vals r0) y).
  Proof. exact (@eigsh_main K V A qr eig eps ncv numeig which tol init size maxiter vals xs numits c). Qed.

  Theorem C51_reject qr eig eps ncv numeig which tol size maxiter init :
    (ncv < numeig \/ size < ncv \/ which = LA \/ which = SA -> jax_eigs A qr eig eps ncv numeig which tol size maxiter init = Err) /\
    (ncv < numeig \/ size < numeig \/ which = LR \/ (ncv = numeig /\ numeig < size) ->
       jax_eigsh A qr eig eps ncv numeig which tol size maxiter init = Err).
  Proof. exact (@reject_top K V A qr eig eps ncv numeig which tol size maxiter init). Qed.
End C51.
(** The sorting functions return a permutation of the indices, the eigenvalues in the order asked for (real ones for LA
    and SA), and the p last eigenvalues as shifts. *)
Theorem C51_sort (K : cfd) which p (ev : list K) :
  Permutation (seq 0 (length ev)) (sort_inds which ev) /\
  (sortable which ev -> forall i j, i < j -> j < length ev -> before which (nth (nth i (sort_inds which ev) 0) ev r0) (nth (nth j (sort_inds which ev) 0) ev r0)) /\
  (0 < p -> p <= length ev -> sort_shifts which p ev = skipn (length ev - p) (map (fun i => nth i ev r0) (sort_inds which ev))).
Proof. exact (@sort_top K which p ev). Qed.
(** The tests for convergence: true exactly if the bound of each of the first numeig eigenvalues is small; [eigs] takes the
    eigenvalues and the Frobenius norm of all of H, [eigsh] those of the leading block. *)
Theorem C51_check_eig (K : cfd) eig (eps tol : K) ncv numeig beta H b : 0 < numeig -> check_eig eig eps ncv numeig tol beta H = Val b ->
  exists th U hn, eig H = Some (th, U) /\ csqrt (nsum ncv (fun i => nsum ncv (fun j => rmul (cj (ent H i j)) (ent H i j)))) = Some hn /\
    (b = true <-> forall n, n < numeig -> small eps tol beta hn (nth n th r0) (ent U (numeig - 1) n)).
Proof. exact (@check_eig_ok K eig eps tol ncv numeig beta H b). Qed.
Theorem C51_check_eigh (K : cfd) eig (eps tol : K) numeig beta H b : check_eigh eig eps numeig tol beta H = Val b ->
  exists th U hn, eig (mkmx numeig numeig (ent H)) = Some (th, U) /\
    csqrt (nsum numeig (fun i => nsum numeig (fun j => rmul (cj (ent H i j)) (ent H i j)))) = Some hn /\
    (b = true <-> forall n, n < numeig -> small eps tol beta hn (nth n th r0) (ent U (numeig - 1) n)).
Proof. exact (@check_eigh_ok K eig eps tol numeig beta H b). Qed.
Print Assumptions C51_check_eig.
Print Assumptions C51_check_eigh.
Print Assumptions C51_arnoldi.
Print Assumptions C51_lanczos_fact.
Print Assumptions C51_continue.
Print Assumptions C51_shifted_qr.
Print Assumptions C51_eigs.
Print Assumptions C51_eigsh.
Print Assumptions C51_reject.
Print Assumptions C51_sort.

(** an operator that is not symmetric, two vectors: the eigenvalue 25 of [[13, 9], [16, 13]] *)
Example C51_eigs_ex : linear nsA /\ qr_contract sy_qr /\ eig_contract ns_eig /\
  show3 (jax_eigs nsA sy_qr ns_eig milli 2 1 LM milli 3 1 e31) = Some ([25%Q], [[3 # 5; 4 # 5; 0%Q]], 2, (false, false, false)).
Proof.
  split; [apply rows_linear|]. split; [apply tbl_qr; vm_compute; reflexivity|]. split; [apply tbl_eig; vm_compute; reflexivity|].
  vm_compute. reflexivity.
Qed.
(** a restart: one shifted QR step with the shift 0, then [converged] *)
Example C51_eigsh_ex : hermitian syA /\ qr_contract sy_qr /\ eigh_contract sy_eig /\
  show3 (jax_eigsh syA sy_qr sy_eig milli 2 1 LA (zq 1 10) 3 2 e31) = Some ([125%Q], [[3 # 5; 12 # 25; 16 # 25]], 1, (false, true, false)).
Proof.
  split; [apply herm3; vm_compute; reflexivity|]. split; [apply tbl_qr; vm_compute; reflexivity|].
  split; [apply tbl_eigh; vm_compute; reflexivity|]. vm_compute. reflexivity.
Qed.
Definition ent_q (H : mx Q_cfd) : list (list Q) := map (map this) H.
(** the factorisation with two vectors of syA: residual (0, 4/5, -3/5) of norm 12; continued and compressed below *)
Example C51_arnoldi_ex : match arnoldi_fact syA e31 (repeat vz 2) (mkmx 2 2 (fun _ _ => r0)) 0 2 milli with
  | Val (Vm, H, r, n, it, conv) => map xs3 Vm = [[1; 0; 0]; [0; 3 # 5; 4 # 5]]%Q /\ ent_q H = [[45; 60]; [60; 80]]%Q /\ xs3 r = [0; 4 # 5; -3 # 5]%Q /\ this n = 12%Q /\ it = 2 /\ conv = false
  | _ => False end.
Proof. vm_compute. auto 10. Qed.
Example C51_lanczos_fact_ex : match lanczos_fact syA e31 (repeat vz 2) (repeat r0 2) (repeat r0 1) 0 2 milli with
  | Val (Vm, al, be, r, n, it, conv) => map this al = [45; 80]%Q /\ map this be = [60]%Q /\ xs3 r = [0; 4 # 5; -3 # 5]%Q /\ this n = 12%Q /\ it = 2
  | _ => False end.
Proof. vm_compute. auto 10. Qed.
(** compressed to one vector with the shift 0, then continued: the second vector and column of H are new *)
Example C51_shifted_qr_ex : match arnoldi_fact syA e31 (repeat vz 2) (mkmx 2 2 (fun _ _ => r0)) 0 2 milli with
  | Val (Vm, H, r, n, _, _) =>
    match shifted_qr sy_qr Vm H (vs n r) [z 0] 1 with
    | Val (Vk, Hk, fk) => xs3 (nth 0 Vk vz) = [3 # 5; 12 # 25; 16 # 25]%Q /\ ent_q Hk = [[125; 0]; [0; 0]]%Q /\ xs3 fk = [0; 192 # 25; -144 # 25]%Q /\
      match arnoldi_fact syA fk (cut_v 1 Vk) (cut_h 1 Hk) 1 2 milli with
      | Val (Vm, H, r, n, it, _) => map xs3 Vm = [[3 # 5; 12 # 25; 16 # 25]; [0; 4 # 5; -3 # 5]]%Q /\ ent_q H = [[125; 48 # 5]; [48 # 5; 87]]%Q /\ this n = (36 # 5)%Q /\ it = 2
      | _ => False end
    | _ => False end
  | _ => False end.
Proof. vm_compute. auto 20. Qed.
Example C51_reject_ex : jax_eigsh syA sy_qr sy_eig milli 2 2 LA milli 3 2 e31 = Err.
Proof. apply C51_reject. right. right. right. split; [reflexivity|lia]. Qed.
Example C51_sort_ex : sort_inds LM [z 1; z (-3); z 2] = [1; 2; 0] /\ map this (sort_shifts LM 2 [z 1; z (-3); z 2]) = [2; 1]%Q /\ sort_inds SA [z 1; z (-3); z 2] = [1; 0; 2].
Proof. vm_compute. auto. Qed.
(** diag(3, 4): the bounds are 0 and beta; one of two that is not small is enough to go on *)
Example C51_check_ex : let d := [[z 3; z 0]; [z 0; z 4]] in let e := fun _ => Some ([z 3; z 4], [[z 1; z 0]; [z 0; z 1]]) in
  check_eig e milli 2 2 milli (z 1) d = Val false /\ check_eig e milli 2 2 milli milli d = Val true /\
  check_eigh e milli 2 milli (z 1) d = Val false /\ check_eigh e milli 2 milli milli d = Val true.
Proof. vm_compute. auto. Qed.
