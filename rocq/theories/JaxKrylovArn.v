(** * JaxKrylovArn: the Arnoldi factorisation *)
From Coq Require Import Field.
From Verif Require Import Prelude Algebra Krylov KrylovFacts KrylovSpec Gmres GmresSpec GmresFacts GmresMain JaxKrylov JaxKrylovSpec JaxKrylovFacts.
Set Implicit Arguments.
Unset Strict Implicit.

Section Mx.
  Context {K : cfd}.
  Lemma square_mkmx n (f : nat -> nat -> K) : square n (mkmx n n f).
  Proof.
    split; [apply mkmx_length|]. intros i Hi. unfold mkmx.
    rewrite (nth_indep _ [] (map (f 0) (seq 0 n))) by (rewrite map_length, seq_length; exact Hi).
    rewrite (map_nth (fun i => map (f i) (seq 0 n)) (seq 0 n) 0 i), map_length, seq_length. reflexivity.
  Qed.
  Lemma ent_row_over n (H : mx K) a b : square n H -> n <= a -> ent H a b = r0.
  Proof. intros [L _] Ha. unfold ent. rewrite (@nth_overflow _ H a) by lia. destruct b; reflexivity. Qed.
  Lemma ent_col_over n (H : mx K) a b : square n H -> n <= b -> ent H a b = r0.
  Proof.
    intros S Hb. destruct (Nat.lt_ge_cases a n) as [Ha|Ha]; [|apply (ent_row_over _ S Ha)].
    destruct S as [_ R]. unfold ent. apply nth_overflow. rewrite R by exact Ha. exact Hb.
  Qed.
  Lemma square_put_ent n (H : mx K) i j x : square n H -> square n (put_ent H i j x).
  Proof.
    intros [L R]. split; [unfold put_ent; rewrite put_length; exact L|]. intros a Ha. unfold put_ent.
    destruct (Nat.eq_dec a i) as [->|Hne].
    - rewrite put_same by lia. rewrite put_length. apply R. exact Ha.
    - rewrite put_other by exact Hne. apply R. exact Ha.
  Qed.
  Lemma ent_put_same n (H : mx K) i j x : square n H -> i < n -> j < n -> ent (put_ent H i j x) i j = x.
  Proof. intros [L R] Hi Hj. unfold ent, put_ent. rewrite put_same by lia. apply put_same. rewrite R by exact Hi. exact Hj. Qed.
  Lemma ent_put_other (H : mx K) i j x a b : a <> i \/ b <> j -> ent (put_ent H i j x) a b = ent H a b.
  Proof.
    intros Hne. unfold ent, put_ent. destruct (Nat.eq_dec a i) as [->|Hn].
    - destruct Hne as [|Hb]; [contradiction|]. destruct (Nat.lt_ge_cases i (length H)) as [Hi|Hi].
      + rewrite put_same by exact Hi. apply put_other. exact Hb.
      + replace (put H i (put (nth i H []) j x)) with H; [reflexivity|]. unfold put at 1. destruct (Nat.ltb_spec i (length H)); [lia|reflexivity].
    - rewrite put_other by exact Hn. reflexivity.
  Qed.
  Lemma set_col_nth n (H : mx K) i c a : length H = n -> a < n -> nth a (set_col H i c) [] = put (nth a H []) i (nth a c r0).
  Proof.
    intros L Ha. unfold set_col.
    rewrite (nth_indep _ [] ((fun p : nat * list K => put (snd p) i (nth (fst p) c r0)) (0, []))) by (rewrite map_length, combine_length, seq_length; lia).
    rewrite (map_nth (fun p : nat * list K => put (snd p) i (nth (fst p) c r0))), combine_nth by (rewrite seq_length; reflexivity).
    cbn [fst snd]. rewrite seq_nth by lia. reflexivity.
  Qed.
  Lemma set_col_length (H : mx K) i c : length (set_col H i c) = length H.
  Proof. unfold set_col. rewrite map_length, combine_length, seq_length. lia. Qed.
  Lemma square_set_col n (H : mx K) i c : square n H -> square n (set_col H i c).
  Proof.
    intros [L R]. split; [rewrite set_col_length; exact L|]. intros a Ha. rewrite (set_col_nth _ _ L Ha), put_length. apply R. exact Ha.
  Qed.
  Lemma ent_col_same n (H : mx K) i c a : square n H -> i < n -> length c = n -> ent (set_col H i c) a i = nth a c r0.
  Proof.
    intros S Hi Lc. destruct (Nat.lt_ge_cases a n) as [Ha|Ha].
    - destruct S as [L R]. unfold ent. rewrite (set_col_nth _ _ L Ha). apply put_same. rewrite R by exact Ha. exact Hi.
    - rewrite (ent_row_over _ (square_set_col i c S) Ha). rewrite nth_overflow by lia. reflexivity.
  Qed.
  Lemma ent_col_other n (H : mx K) i c a b : square n H -> b <> i -> ent (set_col H i c) a b = ent H a b.
  Proof.
    intros S Hb. destruct (Nat.lt_ge_cases a n) as [Ha|Ha].
    - destruct S as [L R]. unfold ent. rewrite (set_col_nth _ _ L Ha). apply put_other. exact Hb.
    - rewrite (ent_row_over _ (square_set_col i c S) Ha), (ent_row_over _ S Ha). reflexivity.
  Qed.
End Mx.

Section Arn.
  Context {K : cfd} {V : ips K}.
  Add Field Kf : (cfth K).
  Variable A : V -> V.
  Variables (N start : nat) (tol : K).
  Notation vat l := (fun i => nth i l vz).

  (** the state: [f] is the residual that was normalised to [prev] *)
  Record resid (f prev : V) (norm : K) : Prop := {
    rs_norm : csqrt (ip f f) = Some norm;
    rs_unit : clt tol norm = true -> norm <> r0 /\ f = vs norm prev;
    rs_zero : clt tol norm = false -> prev = vz
  }.
  Definition norm_of (f : V) (norm : K) : Prop := csqrt (ip f f) = Some norm.
  Record ainv (i : nat) (Vm : list V) (H : mx K) (prev : V) (norm : K) (f : V) : Prop := {
    ai_len : length Vm = N;
    ai_sq : square N H;
    ai_fac : fac A i (vat Vm) (ent H) f;
    ai_res : resid f prev norm;
    ai_prev : i < N -> nth i Vm vz = prev;
    ai_sub : 0 < i -> i < N -> ent H i (i - 1) = norm;
    ai_nz : forall j, start <= S j -> S j < i -> ent H (S j) j <> r0
  }.
  Lemma resid_of f norm prev : nrm f = Val norm -> unit_or_zero tol f norm = Val prev -> resid f prev norm.
  Proof.
    intros Hn Hu. unfold nrm in Hn. destruct (csqrt (ip f f)) as [m|] eqn:E; [|discriminate]. injection Hn as ->.
    unfold unit_or_zero in Hu. constructor; [exact E| |].
    - intros Ht. rewrite Ht in Hu. exact (vs_vdiv Hu).
    - intros Ht. rewrite Ht in Hu. injection Hu as <-. reflexivity.
  Qed.

  Lemma arn_step i Vm H prev norm f w ov n v : ainv i Vm H prev norm f -> i < N -> clt tol norm = true ->
    gram_schmidt (mask i Vm) (A prev) = (w, ov) -> nrm w = Val n -> unit_or_zero tol w n = Val v ->
    ainv (S i) (if i <? N - 1 then put Vm (S i) v else Vm)
      (if i <? N - 1 then put_ent (set_col H i ov) (S i) i n else set_col H i ov) v n w.
  Proof.
    intros [L Sq F Rs Hp Hs Hnz] Hi Ht Hg Hn Hu. destruct (rs_unit Rs Ht) as [Hz Hf].
    pose proof (Hp Hi) as Ep.
    assert (ON : forall a b, a <= i -> b <= i -> ip (nth a Vm vz) (nth b Vm vz) = delta_ a b).
    { assert (F' : fac A (S i) (vat Vm) (fun a b => if b =? i then (if a <=? i then ip (nth a Vm vz) (A (nth i Vm vz)) else r0) else ent H a b)
                     (vsub (A (nth i Vm vz)) (vsum (S i) (fun j => vs (ip (nth j Vm vz) (A (nth i Vm vz))) (nth j Vm vz))))).
      { apply (@fac_step K V A i (vat Vm) (ent H) f norm); try assumption.
        - exact (rs_norm Rs).
        - cbn beta. rewrite Ep. exact Hf.
        - intros a b Hb _. destruct (Nat.eqb_spec b i); [lia|reflexivity].
        - intros H0. destruct (Nat.eqb_spec (i - 1) i); [lia|]. apply Hs; assumption.
        - intros a b Hb Hab. destruct (Nat.eqb_spec b i); [lia|]. apply (f_hess F); assumption.
        - intros a Ha. rewrite Nat.eqb_refl. destruct (Nat.leb_spec a i); [reflexivity|lia].
        - intros a Ha. rewrite Nat.eqb_refl. destruct (Nat.leb_spec a i); [lia|reflexivity].
        - reflexivity. }
      intros a b Ha Hb. apply (f_on F'); lia. }
    assert (Li : i < length Vm) by lia.
    destruct (gram_schmidt_ok (mask_ortho Li ON) Hg) as (Ew & Lo & Eo). rewrite mask_length in Lo, Eo. rewrite (proj_mask _ Li) in Ew.
    assert (Eov : forall a, nth a ov r0 = if a <=? i then ip (nth a Vm vz) (A prev) else r0).
    { intros a. destruct (Nat.lt_ge_cases a (length Vm)) as [Ha|Ha].
      - rewrite Eo by exact Ha. rewrite mask_nth. destruct (Nat.leb_spec a i); [reflexivity|apply ip_0l].
      - rewrite nth_overflow by lia. destruct (Nat.leb_spec a i); [lia|reflexivity]. }
    assert (Sc : square N (set_col H i ov)) by (apply square_set_col; exact Sq).
    assert (Ec : forall a b, ent (set_col H i ov) a b = if b =? i then (if a <=? i then ip (nth a Vm vz) (A prev) else r0) else ent H a b).
    { intros a b. destruct (Nat.eqb_spec b i) as [->|Hb].
      - rewrite (ent_col_same _ Sq Hi) by lia. apply Eov.
      - apply (ent_col_other _ _ Sq Hb). }
    assert (Rw : resid w v n) by (apply resid_of; assumption).
    set (H' := if i <? N - 1 then put_ent (set_col H i ov) (S i) i n else set_col H i ov).
    assert (EH : forall a b, a <> S i \/ b <> i -> ent H' a b = ent (set_col H i ov) a b).
    { intros a b Hab. unfold H'. destruct (i <? N - 1); [apply ent_put_other; exact Hab|reflexivity]. }
    assert (F2 : fac A (S i) (vat Vm) (ent H') w).
    { apply (@fac_step K V A i (vat Vm) (ent H) f norm); try assumption.
      - exact (rs_norm Rs).
      - cbn beta. rewrite Ep. exact Hf.
      - intros a b Hb _. rewrite EH by lia. rewrite Ec. destruct (Nat.eqb_spec b i); [lia|reflexivity].
      - intros H0. rewrite EH by lia. rewrite Ec. destruct (Nat.eqb_spec (i - 1) i); [lia|]. apply Hs; assumption.
      - intros a b Hb Hab. rewrite EH by lia. rewrite Ec. destruct (Nat.eqb_spec b i); [lia|]. apply (f_hess F); assumption.
      - intros a Ha. rewrite EH by lia. rewrite Ec, Nat.eqb_refl. destruct (Nat.leb_spec a i); [|lia]. cbn beta. rewrite Ep. reflexivity.
      - intros a Ha. rewrite EH by lia. rewrite Ec, Nat.eqb_refl. destruct (Nat.leb_spec a i); [lia|reflexivity].
      - cbn beta. rewrite Ep. exact Ew. }
    constructor.
    - destruct (i <? N - 1); rewrite ?put_length; exact L.
    - unfold H'. destruct (i <? N - 1); [apply square_put_ent|]; exact Sc.
    - destruct (i <? N - 1); [|exact F2].
      apply (@fac_ext K V A (S i) (vat Vm) (ent H') w); [| |exact (f_hess F2)|exact F2].
      + intros a Ha. cbn beta. apply put_other. lia.
      + reflexivity.
    - exact Rw.
    - intros H1. destruct (Nat.ltb_spec i (N - 1)); [|lia]. apply put_same. lia.
    - intros _ H1. replace (S i - 1) with i by lia. unfold H'. destruct (Nat.ltb_spec i (N - 1)); [|lia].
      apply (ent_put_same n Sc); lia.
    - intros j Hj1 Hj2. rewrite EH by lia. rewrite Ec. destruct (Nat.eqb_spec j i); [lia|].
      assert (C : S j < i \/ S j = i) by lia. destruct C as [C|C]; [apply Hnz; assumption|].
      replace (ent H (S j) j) with norm; [exact Hz|]. rewrite <- Hs by lia. rewrite <- C. replace (S j - 1) with j by lia. reflexivity.
  Qed.

  Lemma arn_loop fuel : forall i Vm H prev norm f Vm' H' prev' norm' i',
    ainv i Vm H prev norm f -> i <= N -> fuel = N - i ->
    arnoldi_loop A N tol fuel Vm H prev norm i = Val (Vm', H', prev', norm', i') ->
    i <= i' /\ i' <= N /\ (i' = N \/ clt tol norm' = false) /\ (forall a, a <= i -> nth a Vm' vz = nth a Vm vz) /\
    (i < i' -> clt tol norm = true) /\ (i = i' -> norm' = norm) /\
    exists f', ainv i' Vm' H' prev' norm' f' /\ (i = i' -> f' = f).
  Proof.
    induction fuel as [|fuel IH]; intros i Vm H prev norm f Vm' H' prev' norm' i' Hi Hle Hf E; cbn [arnoldi_loop] in E.
    - injection E as <- <- <- <- <-. split; [lia|]. split; [lia|]. split; [left; lia|]. split; [intros; reflexivity|]. split; [lia|]. split; [reflexivity|].
      exists f. split; [exact Hi|reflexivity].
    - destruct ((i <? N) && clt tol norm) eqn:Ec.
      + apply andb_true_iff in Ec. destruct Ec as [Ei Et]. apply Nat.ltb_lt in Ei.
        destruct (gram_schmidt (mask i Vm) (A prev)) as [w ov] eqn:Eg.
        destruct (nrm w) as [n| |] eqn:En; cbn [obind] in E; try discriminate.
        destruct (unit_or_zero tol w n) as [v| |] eqn:Eu; cbn [obind] in E; try discriminate.
        pose proof (arn_step Hi Ei Et Eg En Eu) as Hi'.
        set (Vs := if i <? N - 1 then put Vm (S i) v else Vm) in *.
        set (Hs := if i <? N - 1 then put_ent (set_col H i ov) (S i) i n else set_col H i ov) in *.
        assert (E' : arnoldi_loop A N tol fuel Vs Hs v n (S i) = Val (Vm', H', prev', norm', i')) by (unfold Vs, Hs; destruct (i <? N - 1); exact E).
        destruct (IH _ _ _ _ _ _ _ _ _ _ _ Hi' Ei ltac:(lia) E') as (H1 & H2 & H3 & H4 & H6 & H7 & f' & H8 & H9).
        split; [lia|]. split; [exact H2|]. split; [exact H3|]. split.
        { intros a Ha. rewrite H4 by lia. unfold Vs. destruct (i <? N - 1); [apply put_other; lia|reflexivity]. }
        split; [auto|]. split; [lia|]. exists f'. split; [exact H8|lia].
      + injection E as <- <- <- <- <-. split; [lia|]. split; [exact Hle|]. split.
        { apply andb_false_iff in Ec. destruct Ec as [Ec|Ec]; [left; apply Nat.ltb_ge in Ec; lia|right; exact Ec]. }
        split; [intros; reflexivity|]. split; [lia|]. split; [reflexivity|]. exists f. split; [exact Hi|reflexivity].
  Qed.

  Lemma arnoldi_fact_inv v0 Vm H Vm' H' residual norm it conv :
    length Vm = N -> square N H -> start <= N -> fac A start (vat Vm) (ent H) v0 ->
    arnoldi_fact A v0 Vm H start N tol = Val (Vm', H', residual, norm, it, conv) ->
    start <= it /\ it <= N /\ conv = clt norm tol /\ (it = N \/ clt tol norm = false) /\
    (forall a, a < start -> nth a Vm' vz = nth a Vm vz) /\ (start = 0 -> 0 < it -> exists c, c <> r0 /\ nth 0 Vm' vz = vs c v0) /\
    (it = start -> norm_of v0 norm) /\
    exists f, ainv it Vm' H' residual norm f.
  Proof.
    intros L Sq Hs F E. unfold arnoldi_fact in E.
    destruct (nrm v0) as [Z| |] eqn:En; cbn [obind] in E; try discriminate.
    destruct (unit_or_zero tol v0 Z) as [v| |] eqn:Eu; cbn [obind] in E; try discriminate.
    destruct (arnoldi_loop _ _ _ _ _ _ _ _ _) as [[[[[Vm1 H1] res1] norm1] it1]| |] eqn:El; cbn [obind] in E; try discriminate.
    injection E as <- <- <- <- <- <-.
    set (Vs := put Vm start v) in *. set (Hs' := if 0 <? start then put_ent H start (start - 1) Z else H) in *.
    pose proof (resid_of En Eu) as Rs.
    assert (I : ainv start Vs Hs' v Z v0).
    { constructor.
      - unfold Vs. rewrite put_length. exact L.
      - unfold Hs'. destruct (0 <? start); [apply square_put_ent|]; exact Sq.
      - apply (@fac_ext K V A start (vat Vm) (ent H) v0); [| | |exact F].
        + intros i Hi. cbn beta. unfold Vs. apply put_other. lia.
        + intros i j Hj Hij. unfold Hs'. destruct (0 <? start); [apply ent_put_other; lia|reflexivity].
        + intros i j Hj Hij. unfold Hs'. destruct (0 <? start); [rewrite ent_put_other by lia|]; apply (f_hess F); assumption.
      - exact Rs.
      - intros Hi. unfold Vs. apply put_same. lia.
      - intros H0 Hi. unfold Hs'. destruct (Nat.ltb_spec 0 start); [|lia]. apply (ent_put_same Z Sq); lia.
      - intros j H1' H2'. lia. }
    destruct (arn_loop I Hs eq_refl El) as (E1 & E2 & E3 & E4 & E5 & E6 & f & E7 & E8).
    split; [exact E1|]. split; [exact E2|]. split; [reflexivity|]. split; [exact E3|]. split.
    { intros a Ha. rewrite E4 by lia. unfold Vs. apply put_other. lia. }
    split.
    { intros -> Hp. rewrite E4 by lia. unfold Vs. rewrite put_same by lia.
      destruct (rs_unit Rs (E5 Hp)) as [Hz Hv]. exists (cinv Z). split.
      - intros Q. apply (@one_neq0 K). rewrite <- (cinv_l Hz), Q. ring.
      - rewrite Hv, vs_mul. rewrite cinv_l by exact Hz. rewrite vs_1. reflexivity. }
    split; [|exists f; exact E7].
    intros ->. rewrite E6 by reflexivity. exact (rs_norm Rs).
  Qed.
End Arn.

(** *** the Lanczos factorisation *)
Section Lan.
  Context {K : cfd} {V : ips K}.
  Add Field Kf2 : (cfth K).
  Variable A : V -> V.
  Hypothesis herm : hermitian A.
  Variables (N start : nat) (tol : K).
  Notation vat l := (fun i => nth i l vz).

  Lemma hmat_ent (al be : list K) i j : i < length al -> j < length al ->
    ent (hmat al be) i j = (if i =? j then nth i al r0 else r0) +! (if i =? S j then nth j be r0 else r0) +! (if j =? S i then cj (nth i be r0) else r0).
  Proof. intros Hi Hj. unfold hmat. apply ent_mkmx; assumption. Qed.
  Lemma hmat_sq (al be : list K) : square (length al) (hmat al be).
  Proof. apply square_mkmx. Qed.
  Lemma hmat_tri (al be : list K) i j : S i < j \/ S j < i -> ent (hmat al be) i j = r0.
  Proof.
    intros H. destruct (Nat.lt_ge_cases i (length al)) as [Hi|Hi]; [|apply (ent_row_over _ (hmat_sq al be) Hi)].
    destruct (Nat.lt_ge_cases j (length al)) as [Hj|Hj]; [|apply (ent_col_over _ (hmat_sq al be) Hj)].
    rewrite hmat_ent by assumption. destruct (Nat.eqb_spec i j), (Nat.eqb_spec i (S j)), (Nat.eqb_spec j (S i)); try lia. ring.
  Qed.
  Lemma hmat_sub (al be : list K) i : S i < length al -> ent (hmat al be) (S i) i = nth i be r0.
  Proof.
    intros H. rewrite hmat_ent by lia. rewrite Nat.eqb_refl. destruct (Nat.eqb_spec (S i) i), (Nat.eqb_spec i (S (S i))); try lia. ring.
  Qed.
  Lemma hmat_sup (al be : list K) i : S i < length al -> ent (hmat al be) i (S i) = cj (nth i be r0).
  Proof.
    intros H. rewrite hmat_ent by lia. rewrite Nat.eqb_refl. destruct (Nat.eqb_spec i (S i)), (Nat.eqb_spec i (S (S i))); try lia. ring.
  Qed.
  Lemma hmat_diag (al be : list K) i : i < length al -> ent (hmat al be) i i = nth i al r0.
  Proof. intros H. rewrite hmat_ent by lia. rewrite Nat.eqb_refl. destruct (Nat.eqb_spec i (S i)); try lia. ring. Qed.
  (** entries that do not involve position i of al and be *)
  Lemma hmat_put al be i x y a b : length al = N -> (a < i \/ b < i) ->
    ent (hmat (put al i x) (put be i y)) a b = ent (hmat al be) a b :> K.
  Proof.
    intros L Hab. destruct (Nat.lt_ge_cases a N) as [Ha|Ha].
    2: { rewrite (ent_row_over _ (hmat_sq (put al i x) (put be i y))) by (rewrite put_length; lia). rewrite (ent_row_over _ (hmat_sq al be)) by lia. reflexivity. }
    destruct (Nat.lt_ge_cases b N) as [Hb|Hb].
    2: { rewrite (ent_col_over _ (hmat_sq (put al i x) (put be i y))) by (rewrite put_length; lia). rewrite (ent_col_over _ (hmat_sq al be)) by lia. reflexivity. }
    rewrite !hmat_ent by (rewrite ?put_length; lia).
    destruct (Nat.eqb_spec a b), (Nat.eqb_spec a (S b)), (Nat.eqb_spec b (S a)); try lia; rewrite ?put_other by lia; reflexivity.
  Qed.
  Lemma put_over T (l : list T) i x : length l <= i -> put l i x = l.
  Proof. intros H. unfold put. destruct (Nat.ltb_spec i (length l)); [lia|reflexivity]. Qed.

  Record lainv (i : nat) (Vm : list V) (al be : list K) (prev : V) (norm : K) (f : V) : Prop := {
    la_al : length al = N;
    la_be : length be = N - 1;
    la_inv : ainv A N start tol i Vm (hmat al be) prev norm f
  }.
  Lemma lan_step i Vm al be prev norm f w ov n v : lainv i Vm al be prev norm f -> i < N -> clt tol norm = true ->
    gram_schmidt (mask i Vm) (A prev) = (w, ov) -> nrm w = Val n -> unit_or_zero tol w n = Val v ->
    lainv (S i) (if i <? N - 1 then put Vm (S i) v else Vm) (put al i (nth i ov r0)) (if i <? N - 1 then put be i n else be) v n w.
  Proof.
    intros [La Lb I] Hi Ht Hg Hn Hu. pose proof (arn_step I Hi Ht Hg Hn Hu) as I'.
    destruct I as [L Sq F Rs Hp Hs Hnz]. destruct (rs_unit Rs Ht) as [Hz Hf]. pose proof (Hp Hi) as Ep.
    destruct I' as [L' Sq' F' Rs' Hp' Hs' Hnz'].
    assert (Hbe : (if i <? N - 1 then put be i n else be) = put be i n).
    { destruct (Nat.ltb_spec i (N - 1)); [reflexivity|]. symmetry. apply put_over. lia. }
    rewrite Hbe.
    assert (La' : length (put al i (nth i ov r0)) = N) by (rewrite put_length; exact La).
    (* orthonormality with the new vector *)
    set (Hx := if i <? N - 1 then put_ent (set_col (hmat al be) i ov) (S i) i n else set_col (hmat al be) i ov) in *.
    set (Vx := if i <? N - 1 then put Vm (S i) v else Vm) in *.
    assert (EV : forall a, a <= i -> nth a Vx vz = nth a Vm vz).
    { intros a Ha. unfold Vx. destruct (i <? N - 1); [apply put_other; lia|reflexivity]. }
    assert (ON : forall a b, a <= i -> b <= i -> ip (nth a Vm vz) (nth b Vm vz) = delta_ a b).
    { intros a b Ha Hb. rewrite <- !EV by assumption. apply (f_on F'); lia. }
    (* what the overlaps are *)
    assert (Li : i < length Vm) by lia.
    destruct (gram_schmidt_ok (mask_ortho Li ON) Hg) as (Ew & Lo & Eo). rewrite mask_length in Lo, Eo. rewrite (proj_mask _ Li) in Ew.
    assert (Eii : nth i ov r0 = ip (nth i Vm vz) (A prev)).
    { rewrite Eo by exact Li. rewrite mask_nth. destruct (Nat.leb_spec i i); [reflexivity|lia]. }
    pose proof (cpos_real (proj2 (csqrt_ok (rs_norm Rs)))) as Rn.
    assert (Ov : forall a, a < i -> ip (nth a Vm vz) (A prev) = if S a =? i then norm else r0).
    { intros a Ha. rewrite herm, (f_eq F) by exact Ha. rewrite ip_addl, ip_vsuml.
      rewrite nsum_zero.
      - destruct (Nat.eqb_spec (S a) i) as [E|E].
        + rewrite Hf. rewrite ip_vsl. rewrite <- Ep, ON by lia. unfold delta_. rewrite Nat.eqb_refl, Rn. ring.
        + rewrite ip_0l. ring.
      - intros b Hb. rewrite ip_vsl. cbn beta. rewrite <- Ep, ON by lia. unfold delta_. destruct (Nat.eqb_spec b i); [lia|ring]. }
    assert (F2 : fac A (S i) (vat Vm) (ent (hmat (put al i (nth i ov r0)) (put be i n))) w).
    { apply (@fac_step K V A i (vat Vm) (ent (hmat al be)) f norm); try assumption.
      - exact (rs_norm Rs).
      - cbn beta. rewrite Ep. exact Hf.
      - intros a b Hb _. apply hmat_put; [exact La|right; exact Hb].
      - intros H0. rewrite hmat_put by (try exact La; right; lia). apply Hs; assumption.
      - intros a b Hb Hab. apply hmat_tri. right. exact Hab.
      - intros a Ha. cbn beta. rewrite Ep. assert (C : a = i \/ S a = i \/ S a < i) by lia. destruct C as [->|[C|C]].
        + rewrite hmat_diag by lia. rewrite put_same by lia. rewrite Eii. reflexivity.
        + rewrite hmat_put by (try exact La; left; lia). rewrite Ov by lia. rewrite C, Nat.eqb_refl. subst i.
          rewrite hmat_sup by lia. assert (E : ent (hmat al be) (S a) (S a - 1) = norm) by (apply Hs; lia).
          replace (S a - 1) with a in E by lia. rewrite hmat_sub in E by lia. rewrite E. exact Rn.
        + rewrite hmat_tri by lia. rewrite Ov by lia. destruct (Nat.eqb_spec (S a) i); [lia|reflexivity].
      - intros a Ha. apply hmat_tri. lia.
      - cbn beta. rewrite Ep. exact Ew. }
    constructor; [exact La'|rewrite put_length; exact Lb|].
    constructor.
    - exact L'.
    - rewrite <- La'. apply hmat_sq.
    - apply (@fac_ext K V A (S i) (vat Vm) (ent (hmat (put al i (nth i ov r0)) (put be i n))) w); [|reflexivity|exact (f_hess F2)|exact F2].
      intros a Ha. cbn beta. apply EV. lia.
    - exact Rs'.
    - exact Hp'.
    - intros _ H1. replace (S i - 1) with i by lia. rewrite hmat_sub by lia. apply put_same. lia.
    - intros j Hj1 Hj2. rewrite hmat_put by (try exact La; right; lia).
      assert (C : S j < i \/ S j = i) by lia. destruct C as [C|C]; [apply Hnz; assumption|].
      replace (ent (hmat al be) (S j) j) with norm; [exact Hz|]. rewrite <- Hs by lia. rewrite <- C. replace (S j - 1) with j by lia. reflexivity.
  Qed.

  Lemma lan_loop fuel : forall i Vm al be prev norm f Vm' al' be' prev' norm' i',
    lainv i Vm al be prev norm f -> i <= N -> fuel = N - i ->
    lanczosf_loop A N tol fuel Vm al be prev norm i = Val (Vm', al', be', prev', norm', i') ->
    i <= i' /\ i' <= N /\ (i' = N \/ clt tol norm' = false) /\ (forall a, a <= i -> nth a Vm' vz = nth a Vm vz) /\
    (i < i' -> clt tol norm = true) /\ (i = i' -> norm' = norm) /\
    exists f', lainv i' Vm' al' be' prev' norm' f' /\ (i = i' -> f' = f).
  Proof.
    induction fuel as [|fuel IH]; intros i Vm al be prev norm f Vm' al' be' prev' norm' i' Hi Hle Hf E; cbn [lanczosf_loop] in E.
    - injection E as <- <- <- <- <- <-. split; [lia|]. split; [lia|]. split; [left; lia|]. split; [intros; reflexivity|]. split; [lia|]. split; [reflexivity|].
      exists f. split; [exact Hi|reflexivity].
    - destruct ((i <? N) && clt tol norm) eqn:Ec.
      + apply andb_true_iff in Ec. destruct Ec as [Ei Et]. apply Nat.ltb_lt in Ei.
        destruct (gram_schmidt (mask i Vm) (A prev)) as [w ov] eqn:Eg.
        destruct (nrm w) as [n| |] eqn:En; cbn [obind] in E; try discriminate.
        destruct (unit_or_zero tol w n) as [v| |] eqn:Eu; cbn [obind] in E; try discriminate.
        pose proof (lan_step Hi Ei Et Eg En Eu) as Hi'.
        set (Vs := if i <? N - 1 then put Vm (S i) v else Vm) in *.
        set (Bs := if i <? N - 1 then put be i n else be) in *.
        assert (E' : lanczosf_loop A N tol fuel Vs (put al i (nth i ov r0)) Bs v n (S i) = Val (Vm', al', be', prev', norm', i')) by (unfold Vs, Bs; destruct (i <? N - 1); exact E).
        destruct (IH _ _ _ _ _ _ _ _ _ _ _ _ _ Hi' Ei ltac:(lia) E') as (H1 & H2 & H3 & H4 & H6 & H7 & f' & H8 & H9).
        split; [lia|]. split; [exact H2|]. split; [exact H3|]. split.
        { intros a Ha. rewrite H4 by lia. unfold Vs. destruct (i <? N - 1); [apply put_other; lia|reflexivity]. }
        split; [auto|]. split; [lia|]. exists f'. split; [exact H8|lia].
      + injection E as <- <- <- <- <- <-. split; [lia|]. split; [exact Hle|]. split.
        { apply andb_false_iff in Ec. destruct Ec as [Ec|Ec]; [left; apply Nat.ltb_ge in Ec; lia|right; exact Ec]. }
        split; [intros; reflexivity|]. split; [lia|]. split; [reflexivity|]. exists f. split; [exact Hi|reflexivity].
  Qed.

  Lemma lanczos_fact_inv v0 Vm al be Vm' al' be' residual norm it conv :
    length Vm = N -> length al = N -> length be = N - 1 -> start <= N -> fac A start (vat Vm) (ent (hmat al be)) v0 ->
    lanczos_fact A v0 Vm al be start N tol = Val (Vm', al', be', residual, norm, it, conv) ->
    start <= it /\ it <= N /\ conv = clt norm tol /\ (it = N \/ clt tol norm = false) /\
    (forall a, a < start -> nth a Vm' vz = nth a Vm vz) /\ (start = 0 -> 0 < it -> exists c, c <> r0 /\ nth 0 Vm' vz = vs c v0) /\
    (it = start -> norm_of v0 norm) /\
    exists f, lainv it Vm' al' be' residual norm f.
  Proof.
    intros L La Lb Hs F E. unfold lanczos_fact in E.
    destruct (nrm v0) as [Z| |] eqn:En; cbn [obind] in E; try discriminate.
    destruct (unit_or_zero tol v0 Z) as [v| |] eqn:Eu; cbn [obind] in E; try discriminate.
    destruct (lanczosf_loop _ _ _ _ _ _ _ _ _ _) as [[[[[[Vm1 al1] be1] res1] norm1] it1]| |] eqn:El; cbn [obind] in E; try discriminate.
    injection E as <- <- <- <- <- <- <-.
    set (Vs := put Vm start v) in *. set (Bs := if 0 <? start then put be (start - 1) Z else be) in *.
    pose proof (resid_of En Eu) as Rs.
    assert (EB : forall a b, b < start -> a < start \/ S b < start -> ent (hmat al Bs) a b = ent (hmat al be) a b).
    { intros a b Hb Hab. unfold Bs. destruct (Nat.ltb_spec 0 start); [|reflexivity].
      destruct (Nat.lt_ge_cases a N) as [Ha|Ha].
      2: { rewrite (ent_row_over _ (hmat_sq al (put be (start - 1) Z))) by lia. rewrite (ent_row_over _ (hmat_sq al be)) by lia. reflexivity. }
      rewrite !hmat_ent by lia.
      destruct (Nat.eqb_spec a b), (Nat.eqb_spec a (S b)), (Nat.eqb_spec b (S a)); try lia; rewrite ?put_other by lia; reflexivity. }
    assert (LB : length Bs = N - 1) by (unfold Bs; destruct (0 <? start); rewrite ?put_length; exact Lb).
    assert (I : lainv start Vs al Bs v Z v0).
    { constructor; [exact La|exact LB|]. constructor.
      - unfold Vs. rewrite put_length. exact L.
      - rewrite <- La. apply hmat_sq.
      - apply (@fac_ext K V A start (vat Vm) (ent (hmat al be)) v0); [| | |exact F].
        + intros i Hi. cbn beta. unfold Vs. apply put_other. lia.
        + intros i j Hj Hij. apply EB; lia.
        + intros i j Hj Hij. apply hmat_tri. right. exact Hij.
      - exact Rs.
      - intros Hi. unfold Vs. apply put_same. lia.
      - intros H0 Hi. replace start with (S (start - 1)) at 1 by lia. rewrite hmat_sub by lia. unfold Bs. destruct (Nat.ltb_spec 0 start); [|lia]. apply put_same. lia.
      - intros j H1' H2'. lia. }
    destruct (lan_loop I Hs eq_refl El) as (E1 & E2 & E3 & E4 & E5 & E6 & f & E7 & E8).
    split; [exact E1|]. split; [exact E2|]. split; [reflexivity|]. split; [exact E3|]. split.
    { intros a Ha. rewrite E4 by lia. unfold Vs. apply put_other. lia. }
    split.
    { intros -> Hp. rewrite E4 by lia. unfold Vs. rewrite put_same by lia.
      destruct (rs_unit Rs (E5 Hp)) as [Hz Hv]. exists (cinv Z). split.
      - intros Q. apply (@one_neq0 K). rewrite <- (cinv_l Hz), Q. ring.
      - rewrite Hv, vs_mul. rewrite cinv_l by exact Hz. rewrite vs_1. reflexivity. }
    split; [|exists f; exact E7].
    intros ->. rewrite E6 by reflexivity. exact (rs_norm Rs).
  Qed.
End Lan.
