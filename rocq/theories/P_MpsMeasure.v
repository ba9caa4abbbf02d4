(** * Property C36: environments and measurements of matrix product states; C34: norm *)
From Coq Require Import List ZArith Lia Permutation QArith Qcanon.
From Verif Require Import Prelude Res Algebra Tensor TensorFacts ListFacts Ncon BlockSparse Backends DecompFacts
  Mps MpsSpec MpsState MpsPosition MpsMeasureSpec MpsDouble MpsEnv MpsMeasure MpsNorm MpsExamples P_Mps.
Import ListNotations.
Set Implicit Arguments.
Unset Strict Implicit.
Local Open Scope nat_scope.
Local Open Scope csr_scope.

(** [left_envs(sites)] has exactly the keys [sites]; the value for [s] is the contraction of all tensors left
    of [s] with their conjugates, the outer bond traced.  A recorded centre must be one; without a recorded
    centre any tensors will do. *)
Theorem C36_left_envs (R : cjr) l r (m : mps R) sites :
  chain l (tens m) r -> tens m <> [] -> (forall c, centre m = Some c -> c < length (tens m) /\ canonical (tens m) c) ->
  (forall s, In s sites -> (0 <= s <= Z.of_nat (length (tens m)))%Z) ->
  exists d, left_envs m sites = Ok d /\
  forall s, (~ In (Z.of_nat s) sites -> dget d s = Raise) /\
    (In (Z.of_nat s) sites -> exists e k, dget d s = Ok e /\ chain l (firstn s (tens m)) k /\ shape e = [k; k] /\
       forall b b', b < k -> b' < k -> elt e [b; b'] = left_part l (firstn s (tens m)) b b').
Proof.
  intros C Ne Hc Hs. destruct (left_envs_spec C Ne Hc Hs) as (d & D & H). exists d. split; [exact D|]. intros s. destruct (H s) as [H1 H2].
  split; [exact H2|]. intros I. destruct (H1 I) as (e & E & k & C1 & M1 & M2). exists e, k. auto.
Qed.
Print Assumptions C36_left_envs.

(** [right_envs(sites)]; the key of the model is the site plus one *)
Theorem C36_right_envs (R : cjr) l r (m : mps R) sites :
  chain l (tens m) r -> tens m <> [] -> (forall c, centre m = Some c -> c < length (tens m) /\ canonical (tens m) c) ->
  (forall s, In s sites -> (-1 <= s < Z.of_nat (length (tens m)))%Z) ->
  exists d, right_envs m sites = Ok d /\
  forall k, (~ In (Z.of_nat k - 1)%Z sites -> dget d k = Raise) /\
    (In (Z.of_nat k - 1)%Z sites -> exists e n, dget d k = Ok e /\ chain n (skipn k (tens m)) r /\ shape e = [n; n] /\
       forall a a', a < n -> a' < n -> elt e [a; a'] = right_part r (skipn k (tens m)) a a').
Proof.
  intros C Ne Hc Hs. destruct (right_envs_spec C Ne Hc Hs) as (d & D & H). exists d. split; [exact D|]. intros s. destruct (H s) as [H1 H2].
  split; [exact H2|]. intros I. destruct (H1 I) as (e & E & k & C1 & M1 & M2). exists e, k. auto.
Qed.
Print Assumptions C36_right_envs.

(** [measure_local_operator]: the expectation values in the full state *)
Theorem C36_local (R : cjr) l r (m : mps R) ops sites :
  chain l (tens m) r -> tens m <> [] -> (forall c, centre m = Some c -> c < length (tens m) /\ canonical (tens m) c) ->
  length ops = length sites ->
  (forall o s, In (o, s) (combine ops sites) -> (0 <= s < Z.of_nat (length (tens m)))%Z /\
     exists d, nth_error (phys (tens m)) (Z.to_nat s) = Some d /\ shape o = [d; d]) ->
  measure_local_operator m ops sites =
    Ok (map (fun x => expectation l r (tens m) (sitewise (length (tens m)) (fun i => if i =? Z.to_nat (snd x) then mat (fst x) else ident)))
            (combine ops sites)).
Proof. exact (@local_spec R l r m ops sites). Qed.
Print Assumptions C36_local.

(** [measure_two_body_correlator]: the expectation values of op1 at site1 and op2 at the given sites (op2
    first on the same site), in ascending order of the sites, each once *)
Theorem C36_two_body (R : cjr) iter l r (m : mps R) (o1 o2 : tensor R) s1 sites2 :
  (forall x, Permutation (iter x) x) ->
  chain l (tens m) r -> tens m <> [] -> (forall c, centre m = Some c -> c < length (tens m) /\ canonical (tens m) c) ->
  s1 < length (tens m) -> (exists d, nth_error (phys (tens m)) s1 = Some d /\ shape o1 = [d; d]) ->
  (forall s, In s sites2 -> (0 <= s < Z.of_nat (length (tens m)))%Z /\
     exists d, nth_error (phys (tens m)) (Z.to_nat s) = Some d /\ shape o2 = [d; d]) ->
  measure_two_body_correlator iter m o1 o2 (Z.of_nat s1) sites2 =
    Ok (map (fun s => expectation l r (tens m) (sitewise (length (tens m)) (fun i =>
               if (i =? s1) && (i =? s) then matmat o1 o2 else if i =? s1 then mat o1 else if i =? s then mat o2 else ident)))
            (filter (fun s => existsb (Z.eqb (Z.of_nat s)) sites2) (seq 0 (length (tens m))))).
Proof. intros Hi C Ne Hc Hs1 H1 H2. exact (two_body_spec Hi C Hs1 Ne Hc H2 H1). Qed.
Print Assumptions C36_two_body.

(** the norm of a canonical state is that of its centre tensor *)
Theorem C34_norm (R : cjr) l r (ts : list (tensor R)) c t :
  chain l ts r -> canonical ts c -> nth_error ts c = Some t ->
  nsum l (fun a => nsum r (fun b => lsum (idxs (phys ts)) (fun sg => amp ts a sg b *! cj (amp ts a sg b)))) =
  lsum (idxs (shape t)) (fun ix => elt t ix *! cj (elt t ix)).
Proof. exact (@norm_centre R l r ts c t). Qed.
Print Assumptions C34_norm.

(** after [position(site, normalize=True)], truncated or not, the state has norm one *)
Theorem C34_normalised (R : cjr) (E : Type) iter qrf svdf (nkeep : bool -> option nat -> option E -> list R -> nat) err_ge1 nrm rdiv D err l r (m m' : mps R) site z c :
  (forall x, Permutation (iter x) x) -> qr_ok qrf -> svd_ok svdf ->
  (forall t, nrm t *! cj (nrm t) = lsum (idxs (shape t)) (fun ix => elt t ix *! cj (elt t ix))) -> div_ok rdiv ->
  chain l (tens m) r -> centre m = Some c -> canonical (tens m) c ->
  position iter qrf svdf nkeep err_ge1 nrm rdiv true D err m site = Ok (m', z) -> z <> r0 ->
  nsum l (fun a => nsum r (fun b => lsum (idxs (phys (tens m'))) (fun sg => amp (tens m') a sg b *! cj (amp (tens m') a sg b)))) = r1.
Proof.
  intros Hi Hq Hs Hn Hd C Hc K H Hz. destruct (C34_position Hi Hq Hs C Hc H) as (s & _ & _ & _ & C' & _ & K' & _ & w & W & Ez).
  rewrite (C34_norm C' (K' K) W). subst z. exact (norm_tdiv Hn Hd Hz).
Qed.
Print Assumptions C34_normalised.

(** ** examples *)
(** no recorded centre: nothing is assumed of the tensors *)
Definition m3 : mps Q_cjr := MPS [qt [1; 2; 2] (map qn [1; 2; 3; 4]%Z); qt [2; 2; 2] (map qn [1; 0; 2; 1; 0; 1; 1; 1]%Z); qt [2; 2; 1] (map qn [1; 1; 2; 0]%Z)] None.
Lemma m3_chain : chain 1 (tens m3) 1.
Proof. exists 2, 2. split; [reflexivity|]. exists 2, 2. split; [reflexivity|]. exists 2, 1. split; reflexivity. Qed.
Definition q1 : tensor Q_cjr := qt [2; 2] (map qn [0; 1; 2; 3]%Z).
Definition q2 : tensor Q_cjr := qt [2; 2] (map qn [1; 1; 0; 2]%Z).
Definition vals (x : res (list Q_cjr)) : option (list Q) := match x with Ok l => Some (map this l) | _ => None end.
Definition ex1 (o : tensor Q_cjr) (s : nat) : Q := this (expectation 1 1 (tens m3) (sitewise 3 (fun i => if i =? s then mat o else ident))).
Definition ex2 (s1 s : nat) : Q := this (expectation 1 1 (tens m3) (sitewise 3 (fun i =>
               if (i =? s1) && (i =? s) then matmat q1 q2 else if i =? s1 then mat q1 else if i =? s then mat q2 else ident))).
Example C36_local_example : chain 1 (tens m3) 1 /\ centre m3 = None /\
  vals (measure_local_operator m3 [q1; q2; q1] [2; 0; 2]%Z) = Some [ex1 q1 2; ex1 q2 0; ex1 q1 2] /\
  Qeq_bool (ex1 q1 2) (ex1 q2 0) = false.
Proof. split; [exact m3_chain|]. split; [reflexivity|]. vm_compute. split; reflexivity. Qed.
Example C36_two_body_example :
  vals (measure_two_body_correlator idz m3 q1 q2 1%Z [2; 0; 1]%Z) = Some [ex2 1 0; ex2 1 1; ex2 1 2] /\
  vals (measure_two_body_correlator idz m3 q1 q2 1%Z [2]%Z) = Some [ex2 1 2] /\
  Qeq_bool (ex2 1 0) (ex2 1 1) = false /\ Qeq_bool (ex2 1 1) (ex2 1 2) = false.
Proof. vm_compute. repeat split; reflexivity. Qed.
(** a recorded centre that is one *)
Example C36_envs_example : (forall c, centre xm = Some c -> c < length (tens xm) /\ canonical (tens xm) c) /\
  match left_envs xm [0; 2; 1]%Z, right_envs xm [-1; 1]%Z with
  | Ok d, Ok d' => map fst d = [2; 1; 0] /\ map fst d' = [0; 2] /\
      (match dget d 1 with Ok e => map (fun ix => this (elt e ix)) (idxs [2; 2]) = [10%Q; 14%Q; 14%Q; 20%Q] | _ => False end) /\
      (match dget d' 0 with Ok e => map (fun ix => this (elt e ix)) (idxs [1; 1]) = [30%Q] | _ => False end)
  | _, _ => False
  end.
Proof.
  split; [intros c [= <-]; split; [cbn; lia | exact xcanon]|]. vm_compute. repeat split; reflexivity.
Qed.
(** the norm of the state xm is that of its centre tensor: 1 + 4 + 9 + 16 *)
Example C34_norm_example : canonical (tens xm) 0 /\ this (norm2 xa) = 30%Q /\ this (state_norm2 1 4 (tens xm)) = 30%Q.
Proof. split; [exact xcanon|]. vm_compute. split; reflexivity. Qed.
