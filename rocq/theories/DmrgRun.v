(** * DmrgRun: histories, whole runs, their success, the energy *)
From Coq Require Import List ZArith Lia Permutation.
From Verif Require Import Prelude Res Algebra Tensor TensorFacts ListFacts BlockSparse Backends DecompFacts Mps MpsSpec MpsNcon MpsSplit MpsState MpsPosition
  MpsCanon MpsEnv Dmrg DmrgNcon DmrgSpec DmrgTriple DmrgBlock DmrgMatvec DmrgFacts DmrgMain.
Import ListNotations.
Set Implicit Arguments.
Unset Strict Implicit.
Local Open Scope nat_scope.
Local Open Scope csr_scope.

Lemma pos3 a b c : 0 < nprod [a; b; c] <-> 0 < a /\ 0 < b /\ 0 < c.
Proof. cbn. destruct a, b, c; cbn; split; intros; lia. Qed.
Lemma pos4 a b c d : 0 < nprod [a; b; c; d] <-> 0 < a /\ 0 < b /\ 0 < c /\ 0 < d.
Proof. cbn. destruct a, b, c, d; cbn; split; intros; lia. Qed.

Section Run.
  Context {R : cjr} {E : Type}.
  Notation tensor := (Tensor.tensor R).
  Variable iter : list Z -> list Z.
  Variable qrf : tensor -> res (tensor * tensor).
  Variable svdf : tensor -> res (tensor * list R * tensor).
  Variable nkeep : bool -> option nat -> option E -> list R -> nat.
  Variable err_ge1 : E -> bool.
  Variable nrm : tensor -> R.
  Variable rdiv : R -> R -> R.
  Variable eigs : (tensor -> res tensor) -> tensor -> res (R * tensor).
  Hypothesis iter_perm : forall l, Permutation (iter l) l.
  Hypothesis Hqr : qr_ok qrf.
  Hypothesis Hsvd : svd_ok svdf.
  Hypothesis Heig : forall A t e v, eigs A t = Ok (e, v) -> shape v = shape t /\ 0 < nprod (shape t).
  Variables (wl wr l r : nat) (lb rb : tensor).
  Hypothesis Slb : shape lb = [wl; l; l].
  Hypothesis Srb : shape rb = [wr; r; r].
  Notation sound := (sound wl wr l r lb rb).
  Notation step_ok := (step_ok wl wr l r lb rb).
  Notation ready := (@ready R).
  Notation dposition := (dposition iter qrf svdf nkeep err_ge1 nrm rdiv).
  Notation restart := (restart iter qrf svdf nkeep err_ge1 nrm rdiv).
  Notation optimize_1s := (optimize_1s iter qrf nrm rdiv eigs).
  Notation optimize_2s := (optimize_2s iter svdf nkeep nrm rdiv eigs).
  Notation exec := (exec iter qrf svdf nkeep err_ge1 nrm rdiv eigs).
  Notation execs := (execs iter qrf svdf nkeep err_ge1 nrm rdiv eigs).

  Lemma step_refl c d : sound c d -> step_ok c d c d.
  Proof. intros H. split; [exact H|]. auto. Qed.

  (** ** histories *)
  Definition narrow (o : dop) : Prop := match o with Opt1 _ => l <= 1 /\ r <= 1 | _ => True end.
  Lemma exec_ok c d o d' : narrow o -> sound c d -> exec o d = Ok d' -> exists c', step_ok c d c' d'.
  Proof.
    intros Nr Sd H. destruct o as [s|b|D b| | |]; cbn [Dmrg.exec] in H.
    - destruct (position_ok iter_perm Hqr Hsvd Slb Sd H) as (s' & _ & K). eauto.
    - destruct (optimize_1s b d) as [[x e]| |] eqn:F; try discriminate. injection H as <-. cbn [fst]. destruct Nr.
      pose proof (optimize_1s_ok iter_perm Hqr Heig Slb H H0 Sd F). eauto.
    - destruct (optimize_2s D b d) as [[x e]| |] eqn:F; try discriminate. injection H as <-. cbn [fst].
      pose proof (optimize_2s_ok iter_perm Hsvd Heig Slb Sd F). eauto.
    - destruct (left_envs_ok iter_perm Slb Sd H) as [K _]. eauto.
    - destruct (right_envs_ok iter_perm Sd H) as [K _]. eauto.
    - destruct (restart_ok iter_perm Hqr Hsvd Sd H) as [K _]. eauto.
  Qed.
  Lemma execs_ok os : forall c d d', Forall narrow os -> sound c d -> execs os d = Ok d' -> exists c', step_ok c d c' d'.
  Proof.
    induction os as [|o os IH]; intros c d d' F Sd H; cbn [Dmrg.execs] in H.
    - injection H as <-. exists c. apply step_refl, Sd.
    - destruct (exec o d) as [d1| |] eqn:F1; try discriminate. cbn [rbind] in H. inversion F; subst.
      destruct (exec_ok H2 Sd F1) as (c1 & K1). destruct (IH c1 d1 d' H3 (proj1 K1) H) as (c2 & K2).
      exists c2. exact (step_trans K1 K2).
  Qed.
  Lemma execs_app os1 os2 d : execs (os1 ++ os2) d = rbind (execs os1 d) (execs os2).
  Proof.
    revert d. induction os1 as [|o os1 IH]; intros d; cbn [app Dmrg.execs rbind]; [reflexivity|].
    destruct (exec o d) as [d1| |]; cbn [rbind]; auto.
  Qed.
  (** after both environments were computed, or after the start of a run, nothing is missing *)
  Definition prepares (os : list dop) : Prop := os = [LeftEnvs; RightEnvs] \/ os = [RightEnvs; LeftEnvs] \/ os = [Restart].
  Lemma prepares_ready os c d d' : prepares os -> anchored d -> sound c d -> execs os d = Ok d' -> exists c', sound c' d' /\ ready c' d'.
  Proof.
    intros [->|[->| ->]] An Sd H; cbn [Dmrg.execs Dmrg.exec] in H.
    - destruct (compute_left_envs iter d) as [d1| |] eqn:F1; try discriminate. cbn [rbind] in H.
      destruct (compute_right_envs iter d1) as [d2| |] eqn:F2; try discriminate. injection H as <-.
      destruct (left_envs_ok iter_perm Slb Sd F1) as (K1 & L1 & _). destruct (right_envs_ok iter_perm (proj1 K1) F2) as (K2 & R2 & E2).
      exists c. split; [apply K2|]. split; [rewrite E2; exact L1|]. intros n Hn. apply R2. destruct K2 as (_ & _ & _ & _ & _ & P2). rewrite <- (phys_len P2). exact Hn.
    - destruct (compute_right_envs iter d) as [d1| |] eqn:F1; try discriminate. cbn [rbind] in H.
      destruct (compute_left_envs iter d1) as [d2| |] eqn:F2; try discriminate. injection H as <-.
      destruct (right_envs_ok iter_perm Sd F1) as (K1 & R1 & _). destruct (left_envs_ok iter_perm Slb (proj1 K1) F2) as (K2 & L2 & E2).
      exists c. split; [apply K2|]. split; [exact L2|]. rewrite E2. intros n Hn. apply R1.
      destruct K1 as (_ & _ & _ & _ & _ & P1), K2 as (_ & _ & _ & _ & _ & P2). rewrite <- (phys_len P1), <- (phys_len P2). exact Hn.
    - destruct (restart d) as [d1| |] eqn:F1; try discriminate. injection H as <-.
      destruct (restart_ok iter_perm Hqr Hsvd Sd F1) as [K1 R1]. exists 0. split; [apply K1|]. apply R1, An.
  Qed.

  Lemma init_sound c m ws d : chain l (tens m) r -> ochain wl ws (phys (tens m)) wr -> centre m = Some c -> c < length (tens m) ->
    init_dmrg m ws lb rb = Ok d -> sound c d /\ anchored d /\ dmps d = m /\ dmpo d = ws.
  Proof.
    intros C O Cc Lc H. unfold init_dmrg in H. destruct (length (tens m) =? length ws); [|discriminate]. cbn [guard] in H. rewrite Cc in H. injection H as <-.
    set (N := length (tens m)) in *. repeat split; cbn [dmps dmpo lenvs renvs]; auto.
    - intros n e Hn Hx. destruct n as [|n]; cbn in Hx; [|discriminate]. injection Hx as <-.
      exists l, wl. split; [reflexivity|]. split; [reflexivity|]. split; [exact Slb|]. intros z Vz. symmetry. exact (left_env_nil Slb Vz).
    - intros n e Hn Hx. unfold dget in Hx. cbn [find fst snd] in Hx. destruct (Nat.eqb_spec (N - 1) n) as [<-|]; [|discriminate]. injection Hx as <-.
      fold N in Hn. exists r, wr. assert (length ws = N) as LW by (rewrite (ochain_length O); apply phys_length).
      rewrite !skipn_all2 by (fold N; lia). split; [reflexivity|]. split; [reflexivity|]. split; [exact Srb|]. intros z Vz. symmetry. exact (right_env_nil Srb Vz).
    - exists lb. reflexivity.
    - fold N. exists rb. unfold dget. cbn. rewrite Nat.eqb_refl. reflexivity.
  Qed.

  (** ** whole runs *)
  Section Opt.
    Variable opt : bool -> dmrg R -> res (dmrg R * R).
    Variable converged : option R -> R -> bool.
    Hypothesis Hopt : forall c d b d' e, sound c d -> opt b d = Ok (d', e) -> step_ok c d (moved b (length (tens (dmps d))) c) d'.
    Notation sweep_right := (sweep_right opt).
    Notation sweep_left := (sweep_left opt).
    Notation run := (run iter qrf svdf nkeep err_ge1 nrm rdiv opt converged).
    Notation sweep := (sweep iter qrf svdf nkeep err_ge1 nrm rdiv opt).
    Notation sweeps := (sweeps iter qrf svdf nkeep err_ge1 nrm rdiv opt converged).

    Lemma sweep_right_ok f : forall c d e d' e', sound c d -> sweep_right f d e = Ok (d', e') -> exists c', step_ok c d c' d' /\ c' = length (tens (dmps d)) - 1.
    Proof.
      induction f as [|f IH]; intros c d e d' e' Sd H; cbn [Dmrg.sweep_right] in H; rewrite (s_centre Sd) in H; pose proof (s_lt Sd) as Lc.
      - destruct (Nat.ltb_spec c (length (tens (dmps d)) - 1)); [discriminate|]. injection H as <- <-. exists c. split; [apply step_refl, Sd | lia].
      - destruct (Nat.ltb_spec c (length (tens (dmps d)) - 1)).
        + destruct (opt true d) as [[d1 e1]| |] eqn:F; try discriminate. cbn [rbind fst snd] in H. pose proof (Hopt Sd F) as K.
          destruct (IH _ _ _ _ _ (proj1 K) H) as (c' & K' & Ec). exists c'. split; [exact (step_trans K K')|].
          destruct K as (_ & _ & _ & _ & _ & P). rewrite Ec, (phys_len P). reflexivity.
        + injection H as <- <-. exists c. split; [apply step_refl, Sd | lia].
    Qed.
    Lemma sweep_left_ok f : forall c d e d' e', sound c d -> sweep_left f d e = Ok (d', e') -> step_ok c d 0 d'.
    Proof.
      induction f as [|f IH]; intros c d e d' e' Sd H; cbn [Dmrg.sweep_left] in H; rewrite (s_centre Sd) in H.
      - destruct (Nat.ltb_spec 0 c); [discriminate|]. injection H as <- <-. replace c with 0 in * by lia. apply step_refl, Sd.
      - destruct (Nat.ltb_spec 0 c).
        + destruct (opt false d) as [[d1 e1]| |] eqn:F; try discriminate. cbn [rbind fst snd] in H. pose proof (Hopt Sd F) as K.
          exact (step_trans K (IH _ _ _ _ _ (proj1 K) H)).
        + injection H as <- <-. replace c with 0 in * by lia. apply step_refl, Sd.
    Qed.
    Lemma sweep_ok c d e d' e' : sound c d -> sweep d e = Ok (d', e') -> step_ok c d 0 d'.
    Proof.
      intros Sd H. unfold Dmrg.sweep in H. destruct (sweep_right (length (tens (dmps d))) d e) as [[d1 e1]| |] eqn:F1; try discriminate. cbn [rbind fst snd] in H.
      destruct (sweep_right_ok Sd F1) as (c1 & K1 & _).
      destruct (dposition (Z.of_nat (length (tens (dmps d)) - 1)) d1) as [d2| |] eqn:F2; try discriminate. cbn [rbind] in H.
      destruct (position_ok iter_perm Hqr Hsvd Slb (proj1 K1) F2) as (c2 & _ & K2).
      exact (step_trans K1 (step_trans K2 (sweep_left_ok (proj1 K2) H))).
    Qed.
    Lemma sweeps_ok k : forall c d last e d' e', sound c d -> sweeps k d last e = Ok (d', e') -> exists c', step_ok c d c' d' /\ (0 < k -> c' = 0).
    Proof.
      induction k as [|k IH]; intros c d last e d' e' Sd H; cbn [Dmrg.sweeps] in H.
      - injection H as <- <-. exists c. split; [apply step_refl, Sd | lia].
      - destruct (sweep d e) as [[d1 e1]| |] eqn:F; try discriminate. cbn [rbind fst snd] in H. pose proof (sweep_ok Sd F) as K.
        destruct (converged last e1).
        + injection H as <- <-. exists 0. auto.
        + destruct (IH _ _ _ _ _ _ (proj1 K) H) as (c' & K' & Hc). exists c'. split; [exact (step_trans K K')|]. intros _.
          destruct k as [|k]; [|apply Hc; lia]. cbn [Dmrg.sweeps] in H. injection H as <- <-.
          pose proof (s_centre (proj1 K)) as A. pose proof (s_centre (proj1 K')) as B. rewrite A in B. congruence.
    Qed.
    (** every run leaves a state that is ready for the next one, with the centre at site 0 *)
    Lemma run_ok k c d d' e : 0 < k -> anchored d -> sound c d -> run k d = Ok (d', e) -> step_ok c d 0 d' /\ ready 0 d'.
    Proof.
      intros Pk An Sd H. unfold Dmrg.run in H. destruct k as [|k]; [lia|].
      destruct (restart d) as [d1| |] eqn:F1; try discriminate. cbn [rbind] in H.
      destruct (restart_ok iter_perm Hqr Hsvd Sd F1) as [K1 R1]. specialize (R1 (proj1 An)).
      destruct (dposition 0%Z d1) as [d2| |] eqn:F2; try discriminate. cbn [rbind] in H.
      destruct (position_ok iter_perm Hqr Hsvd Slb (proj1 K1) F2) as (c2 & _ & K2).
      destruct (opt true d2) as [[d3 e3]| |] eqn:F3; try discriminate. cbn [rbind fst snd] in H. pose proof (Hopt (proj1 K2) F3) as K3.
      destruct (sweeps_ok (proj1 K3) H) as (c4 & K4 & Hc). rewrite Hc in K4 by lia.
      split; [exact (step_trans K1 (step_trans K2 (step_trans K3 K4)))|].
      apply K4, K3, K2, R1.
    Qed.
  End Opt.

  (** ** success *)
  Definition pos (ts : list tensor) : Prop := forall t, In t ts -> 0 < nprod (shape t).
  Lemma pos_set n v ts : pos ts -> 0 < nprod (shape v) -> pos (set_nth n v ts).
  Proof.
    intros P Pv. revert n. induction ts as [|x ts IH]; intros [|n] t H; cbn in H; try contradiction.
    - destruct H as [<-|H]; [exact Pv | apply P; right; exact H].
    - destruct H as [<-|H]; [apply P; left; reflexivity | apply (IH (fun t Ht => P t (or_intror Ht)) n t H)].
  Qed.
  Lemma pos_nth n t ts : pos ts -> nth_error ts n = Some t -> 0 < nprod (shape t).
  Proof. intros P H. apply P, (nth_error_In _ _ H). Qed.

  Lemma move_right_pos nz (ts ts' : list tensor) n z : chain l ts r -> pos ts -> move_right iter qrf svdf nkeep nrm rdiv nz None None ts n = Ok (ts', z) -> pos ts'.
  Proof.
    intros C P H. unfold move_right in H. destruct (get ts n) as [t| |] eqn:Ht; try discriminate. cbn [rbind] in H. apply get_inv in Ht.
    unfold split_right, use_svd in H. cbn [rbind orb] in H.
    destruct (chain_shape C Ht) as (m & d & k & St). pose proof (pos_nth P Ht) as Pt. rewrite St in Pt. apply pos3 in Pt.
    destruct (qr_at qrf t 2) as [[q rr]| |] eqn:F; try discriminate. cbn [rbind] in H.
    destruct (@qr_at_spec _ qrf Hqr t q rr [m; d] [k] 2 St eq_refl F) as (Sq & Sr & _). cbn [app] in Sq. set (kk := Nat.min (nprod [m; d]) (nprod [k])) in *.
    assert (0 < kk) as Pk by (unfold kk; cbn; nia).
    destruct (get (set_nth n q ts) (n + 1)) as [u| |] eqn:Hu; try discriminate. cbn [rbind] in H. apply get_inv in Hu. rewrite nth_set_ne in Hu by lia.
    destruct (neighbours C Ht Hu St) as (e & j & Su). pose proof (pos_nth P Hu) as Pu. rewrite Su in Pu. apply pos3 in Pu.
    destruct (@ncon_mt R iter iter_perm rr u kk k e j Sr Su) as (w & W1 & Sw & _). rewrite W1 in H. cbn [rbind] in H. injection H as <- _.
    apply pos_set; [apply pos_set; [exact P|]|].
    - rewrite Sq. apply pos3. lia.
    - destruct nz; cbn [tdiv shape]; rewrite Sw; apply pos3; lia.
  Qed.
  Lemma move_left_pos nz (ts ts' : list tensor) n z : chain l ts r -> 0 < n -> pos ts -> move_left iter qrf svdf nkeep nrm rdiv nz None None ts n = Ok (ts', z) -> pos ts'.
  Proof.
    intros C Hn P H. unfold move_left in H. destruct (get ts n) as [t| |] eqn:Ht; try discriminate. cbn [rbind] in H. apply get_inv in Ht.
    unfold split_left, use_svd in H. cbn [rbind orb] in H.
    destruct (rq_at qrf t 1) as [[rr q]| |] eqn:F; try discriminate. cbn [rbind] in H.
    destruct (get (set_nth n q ts) (n - 1)) as [u| |] eqn:Hu; try discriminate. cbn [rbind] in H. apply get_inv in Hu. rewrite nth_set_ne in Hu by lia.
    destruct (chain_shape C Hu) as (m & d & k & Su). pose proof (pos_nth P Hu) as Pu. rewrite Su in Pu. apply pos3 in Pu.
    assert (nth_error ts (n - 1 + 1) = Some t) as Ht' by (replace (n - 1 + 1) with n by lia; exact Ht).
    destruct (neighbours C Hu Ht' Su) as (e & j & St). pose proof (pos_nth P Ht) as Pt. rewrite St in Pt. apply pos3 in Pt.
    destruct (@rq_at_spec _ qrf Hqr t q rr [k] [e; j] 1 St eq_refl F) as (Sr & Sq & _). cbn [app] in Sr. set (kk := Nat.min (nprod [e; j]) (nprod [k])) in *.
    assert (0 < kk) as Pk by (unfold kk; cbn; nia).
    destruct (@ncon_tm R iter iter_perm u rr m d k kk Su Sr) as (w & W1 & Sw & _). rewrite W1 in H. cbn [rbind] in H. injection H as <- _.
    apply pos_set; [apply pos_set; [exact P|]|].
    - rewrite Sq. apply pos3. lia.
    - destruct nz; cbn [tdiv shape]; rewrite Sw; apply pos3; lia.
  Qed.
  Lemma position_pos (m m' : mps R) s z c : chain l (tens m) r -> centre m = Some c -> mps_position iter qrf svdf nkeep err_ge1 nrm rdiv m (Z.of_nat s) = Ok (m', z) ->
    pos (tens m) -> pos (tens m').
  Proof.
    intros C Cc H P. unfold mps_position, position in H. rewrite Cc in H. cbn [guard] in H. destruct (negb _); [|discriminate]. cbn [guard] in H. rewrite Nat2Z.id in H.
    assert (forall step ns, (forall n a b z, In n ns -> chain l a r -> pos a -> step a n = Ok (b, z) -> chain l b r /\ pos b) ->
      forall a b z0 z, chain l a r -> pos a -> loop step ns a z0 = Ok (b, z) -> pos b) as K.
    { intros step ns. induction ns as [|n ns IH]; intros Hs a b z0 z1 Ca Pa F; cbn [loop] in F.
      - injection F as <- <-. exact Pa.
      - destruct (step a n) as [[a1 z2]| |] eqn:F1; try discriminate. cbn [rbind] in F. destruct (Hs n a a1 z2 (or_introl eq_refl) Ca Pa F1) as [C1 P1].
        exact (IH (fun k x y w I => Hs k x y w (or_intror I)) _ _ _ _ C1 P1 F). }
    destruct (Nat.eqb_spec s c) as [Es|N].
    - destruct (get (tens m) c) as [t| |] eqn:Ht; try discriminate. cbn [rbind] in H. injection H as <- _. cbn [tens]. apply pos_set; [exact P|]. cbn [tdiv shape]. apply (pos_nth P (get_inv Ht)).
    - destruct (Nat.ltb_spec c s) as [L|L].
      + destruct (loop _ _ (tens m) r0) as [[ts' z']| |] eqn:F; try discriminate. cbn [rbind] in H. injection H as <- _. cbn [tens].
        refine (K _ _ _ _ _ _ _ C P F). intros n a b z0 I Ca Pa M. split; [|exact (move_right_pos Ca Pa M)].
        destruct (move_right_spec iter_perm Hqr Hsvd Ca M) as (? & ? & ? & ? & ? & ? & _ & _ & _ & _ & C1 & _). exact C1.
      + destruct (loop _ _ (tens m) r0) as [[ts' z']| |] eqn:F; try discriminate. cbn [rbind] in H. injection H as <- _. cbn [tens].
        refine (K _ _ _ _ _ _ _ C P F). intros n a b z0 I Ca Pa M. rewrite <- in_rev in I. apply in_seq in I. assert (0 < n) as Pn by lia. split; [|exact (move_left_pos Ca Pn Pa M)].
        destruct (move_left_spec iter_perm Hqr Hsvd Pn Ca M) as (? & ? & ? & ? & ? & ? & _ & _ & _ & _ & C1 & _). exact C1.
  Qed.

  Section Total.
    Hypothesis Tqr : total qrf.
    Hypothesis Tsvd : total svdf.
    Hypothesis Teig : forall A t, 0 < nprod (shape t) -> (forall x, shape x = shape t -> exists y, A x = Ok y /\ shape y = shape x) -> exists f, eigs A t = Ok f.
    Hypothesis Hkeep : forall rel D err s, D <> Some 0 -> s <> [] -> 0 < nkeep rel D err s.

    Lemma left_envs_total c d : anchored d -> sound c d -> exists d', compute_left_envs iter d = Ok d'.
    Proof.
      intros [(e & He) _] Sd. unfold compute_left_envs. rewrite (s_centre Sd), He. cbn [rbind]. pose proof (s_lt Sd) as Lc.
      assert (lgood wl l lb (tens (dmps d)) (dmpo d) 0 e) as G by (apply (s_left Sd); [lia | exact He]).
      destruct (add_lefts_spec iter_perm Slb (s_chain Sd) (s_ochain Sd) (j := c) (c := 0) (d := [(0, e)]) (e := e) ltac:(lia) eq_refl G) as (d1 & A & _).
      rewrite A. cbn. eauto.
    Qed.
    Lemma right_envs_total c d : anchored d -> sound c d -> exists d', compute_right_envs iter d = Ok d'.
    Proof.
      intros [_ (e & He)] Sd. unfold compute_right_envs. rewrite (s_centre Sd), He. cbn [rbind]. pose proof (s_lt Sd) as Lc. set (N := length (tens (dmps d))) in *.
      assert (rgood wr r rb (tens (dmps d)) (dmpo d) (N - 1) e) as G by (apply (s_right Sd); [fold N; lia | exact He]).
      destruct (add_rights_spec (rb := rb) iter_perm (s_chain Sd) (s_ochain Sd) (j := N - 1 - c) (s := c) (d := [(N - 1, e)]) (e := e)) as (d1 & A & _);
        [fold N; lia | replace (c + (N - 1 - c)) with (N - 1) by lia; unfold dget; cbn; rewrite Nat.eqb_refl; reflexivity | replace (c + (N - 1 - c)) with (N - 1) by lia; exact G |].
      rewrite A. cbn. eauto.
    Qed.
    Lemma mps_position_total c d s : sound c d -> s < length (tens (dmps d)) -> exists f, mps_position iter qrf svdf nkeep err_ge1 nrm rdiv (dmps d) (Z.of_nat s) = Ok f.
    Proof.
      intros Sd Ls. unfold mps_position.
      exact (@position_total R E iter qrf svdf nkeep err_ge1 nrm rdiv iter_perm Hqr Hsvd true None None Tqr (or_introl (conj eq_refl eq_refl)) l r (dmps d) c s (s_chain Sd) (s_centre Sd) (s_lt Sd) Ls I).
    Qed.
    Lemma dposition_total c d s : sound c d -> ready c d -> s < length (tens (dmps d)) -> exists d', dposition (Z.of_nat s) d = Ok d'.
    Proof.
      intros Sd [RL RR] Ls. unfold Dmrg.dposition. rewrite (proj2 (Z.leb_gt _ _)) by lia. rewrite (proj2 (Z.ltb_ge _ _)) by lia. cbn [negb guard].
      rewrite (s_centre Sd), Nat2Z.id. destruct (Nat.eqb_spec s c); [eauto|].
      destruct (mps_position_total Sd Ls) as ([m z] & P). rewrite P. cbn [rbind fst].
      unfold mps_position in P. destruct (position_local (s_centre Sd) P) as [F1 F2].
      destruct (position_spec iter_perm Hqr Hsvd (s_chain Sd) (s_centre Sd) P) as (s0 & E0 & L0 & Cm & C' & P' & _).
      pose proof (phys_len P') as LN. pose proof (s_lt Sd) as Lc.
      assert (ochain wl (dmpo d) (phys (tens m)) wr) as O' by (rewrite P'; apply Sd).
      destruct (Nat.ltb_spec c s) as [Lt|Ge].
      - rewrite Nat.min_l, Nat.max_r in * by lia. destruct (RL c (le_n c)) as (e & De).
        assert (lgood wl l lb (tens m) (dmpo d) c e) as G by (apply (lgood_change F1), (s_left Sd); [lia | exact De]).
        destruct (add_lefts_spec iter_perm Slb C' O' (j := s - c) (c := c) (d := lenvs d) ltac:(lia) De G) as (d1 & A' & _). rewrite A'. cbn. eauto.
      - rewrite Nat.min_r, Nat.max_l in * by lia. destruct (RR c) as (e & De); [lia|].
        assert (rgood wr r rb (tens m) (dmpo d) c e) as G by (apply (rgood_change F2), (s_right Sd); [lia | exact De]).
        destruct (add_rights_spec (rb := rb) iter_perm C' O' (j := c - s) (s := s) (d := renvs d) (e := e) ltac:(lia)) as (d1 & A' & _);
          [replace (s + (c - s)) with c by lia; assumption | replace (s + (c - s)) with c by lia; assumption |]. rewrite A'. cbn. eauto.
    Qed.
    Lemma restart_total c d : anchored d -> sound c d -> exists d', restart d = Ok d'.
    Proof.
      intros [_ (e & De)] Sd. unfold Dmrg.restart. pose proof (s_lt Sd) as Lc.
      destruct (mps_position_total (s := 0) Sd) as ([m z] & P); [lia|]. change (Z.of_nat 0) with 0%Z in P. rewrite P. cbn [rbind fst].
      unfold mps_position in P. change 0%Z with (Z.of_nat 0) in P. destruct (position_local (s_centre Sd) P) as [_ F2].
      destruct (position_spec iter_perm Hqr Hsvd (s_chain Sd) (s_centre Sd) P) as (s0 & E0 & L0 & Cm & C' & P' & _). assert (s0 = 0) as -> by lia.
      pose proof (phys_len P') as LN. rewrite Nat.max_0_r in F2.
      assert (ochain wl (dmpo d) (phys (tens m)) wr) as O' by (rewrite P'; apply Sd).
      unfold compute_right_envs. cbn [dmps dmpo lenvs renvs]. rewrite Cm, LN, De. cbn [rbind]. rewrite Nat.sub_0_r. set (N := length (tens (dmps d))) in *.
      assert (rgood wr r rb (tens m) (dmpo d) (N - 1) e) as G.
      { apply (rgood_change (skipn_le' (n := N - 1 + 1) F2 ltac:(lia))), (s_right Sd); [fold N; lia | exact De]. }
      destruct (add_rights_spec (rb := rb) iter_perm C' O' (j := N - 1) (s := 0) (d := [(N - 1, e)]) (e := e)) as (re & A & _);
        [rewrite LN; lia | cbn [Nat.add]; unfold dget; cbn; rewrite Nat.eqb_refl; reflexivity | exact G |].
      rewrite A. cbn. eauto.
    Qed.

    (** the three factors at the centre fit *)
    Lemma centre_shapes c d t L Rr W m dd k : sound c d -> nth_error (tens (dmps d)) c = Some t -> shape t = [m; dd; k] -> dget (lenvs d) c = Ok L -> dget (renvs d) c = Ok Rr ->
      nth_error (dmpo d) c = Some W -> exists w w', shape L = [w; m; m] /\ shape W = [w; w'; dd; dd] /\ shape Rr = [w'; k; k].
    Proof.
      intros Sd Ht St HL HR HW. destruct (s_left Sd (le_n c) HL) as (k1 & wk1 & C1 & O1 & SL & _).
      pose proof (s_lt Sd) as Lc. destruct (s_right Sd (n := c) (conj (le_n c) Lc) HR) as (k2 & wk2 & C2 & O2 & SR & _).
      destruct (chain_cut (s_chain Sd) Ht) as (m' & d' & k' & D1 & St' & D2). rewrite St in St'. injection St' as <- <- <-.
      pose proof (chain_det C1 D1) as E1. pose proof (chain_det_l C2 D2) as E2. subst.
      destruct (ochain_cut (s_ochain Sd) HW) as (wm & wk' & d' & P1 & SW & Nd & P2). rewrite <- phys_skipn in P2. rewrite <- phys_firstn in P1.
      assert (d' = dd) as ->. { unfold phys in Nd. rewrite nth_error_map, Ht in Nd. cbn in Nd. rewrite St in Nd. injection Nd as <-. reflexivity. }
      exists wm, wk'. split; [|split; [exact SW|]].
      - rewrite SL. f_equal. exact (ochain_fun O1 P1).
      - rewrite SR. f_equal. destruct (skipn (c + 1) (dmpo d)) as [|W' q] eqn:Eq; [|refine (ochain_fun_l _ O2 P2); discriminate].
        destruct (phys (skipn (c + 1) (tens (dmps d)))); [|contradiction]. cbn in O2, P2. congruence.
    Qed.
    Lemma pair_shapes c s d t1 t2 L Rr W1 W2 m dd k ee j : sound c d -> s <= c <= s + 1 -> nth_error (tens (dmps d)) s = Some t1 -> nth_error (tens (dmps d)) (s + 1) = Some t2 ->
      shape t1 = [m; dd; k] -> shape t2 = [k; ee; j] -> dget (lenvs d) s = Ok L -> dget (renvs d) (s + 1) = Ok Rr ->
      nth_error (dmpo d) s = Some W1 -> nth_error (dmpo d) (s + 1) = Some W2 ->
      exists w w' w'', shape L = [w; m; m] /\ shape W1 = [w; w'; dd; dd] /\ shape W2 = [w'; w''; ee; ee] /\ shape Rr = [w''; j; j].
    Proof.
      intros Sd Hs H1 H2 S1 S2 HL HR HW1 HW2. destruct (s_left Sd (proj1 Hs) HL) as (k1 & wk1 & C1 & O1 & SL & _).
      assert (s + 1 < length (tens (dmps d))) as Ls by (apply nth_error_Some; congruence).
      destruct (s_right Sd (n := s + 1) (conj (proj2 Hs) Ls) HR) as (k2 & wk2 & C2 & O2 & SR & _).
      destruct (chain_cut (s_chain Sd) H1) as (m' & d' & k' & D1 & St' & _). rewrite S1 in St'. injection St' as <- <- <-.
      destruct (chain_cut (s_chain Sd) H2) as (m' & d' & k' & _ & St' & D2). rewrite S2 in St'. injection St' as <- <- <-.
      pose proof (chain_det C1 D1) as E1. pose proof (chain_det_l C2 D2) as E2. subst.
      destruct (ochain_cut (s_ochain Sd) HW1) as (wm & wk' & d1 & P1 & SW1 & Nd1 & Q1). rewrite <- phys_firstn in P1.
      destruct (ochain_cut (s_ochain Sd) HW2) as (wm2 & wk2' & d2 & _ & SW2 & Nd2 & P2). rewrite <- phys_skipn in P2.
      assert (d1 = dd) as ->. { unfold phys in Nd1. rewrite nth_error_map, H1 in Nd1. cbn in Nd1. rewrite S1 in Nd1. injection Nd1 as <-. reflexivity. }
      assert (d2 = ee) as ->. { unfold phys in Nd2. rewrite nth_error_map, H2 in Nd2. cbn in Nd2. rewrite S2 in Nd2. injection Nd2 as <-. reflexivity. }
      assert (wm2 = wk') as ->.
      { rewrite (skipn_cons HW2), <- phys_skipn, (skipn_cons H2) in Q1. destruct Q1 as (x & SW2' & _). rewrite SW2 in SW2'. injection SW2' as -> _ _. reflexivity. }
      exists wm, wk', wk2'. split; [|split; [exact SW1|split; [exact SW2|]]].
      - rewrite SL. f_equal. exact (ochain_fun O1 P1).
      - rewrite SR. f_equal. destruct (skipn (s + 1 + 1) (dmpo d)) as [|W' q] eqn:Eq; [|refine (ochain_fun_l _ O2 P2); discriminate].
        destruct (phys (skipn (s + 1 + 1) (tens (dmps d)))); [|contradiction]. cbn in O2, P2. congruence.
    Qed.

    Lemma mpo_nth c d i : sound c d -> i < length (tens (dmps d)) -> exists W, nth_error (dmpo d) i = Some W.
    Proof.
      intros Sd H. destruct (nth_error (dmpo d) i) as [W|] eqn:Ew; [eauto|]. apply nth_error_None in Ew. rewrite (ochain_length (s_ochain Sd)), phys_length in Ew. lia.
    Qed.
    Lemma get_some (ts : list tensor) n x : nth_error ts n = Some x -> get ts n = Ok x.
    Proof. unfold get. intros ->. reflexivity. Qed.

    Lemma optimize_1s_total c d b : sound c d -> ready c d -> pos (tens (dmps d)) -> exists d' e, optimize_1s b d = Ok (d', e) /\ pos (tens (dmps d')).
    Proof.
      intros Sd [RL RR] P. unfold Dmrg.optimize_1s. rewrite (s_centre Sd). pose proof (s_lt Sd) as Lc. set (ts := tens (dmps d)) in *.
      destruct (RL c (le_n c)) as (L & HL). destruct (RR c (conj (le_n c) Lc)) as (Rr & HR). destruct (mpo_nth Sd Lc) as (W & HW).
      destruct (sound_nth Sd Lc) as (t & m & dd & k & Ht & St). fold ts in Ht. rewrite HL, HR, (get_some HW), (get_some Ht). cbn [rbind].
      destruct (centre_shapes Sd Ht St HL HR HW) as (w & w' & SL & SW & SR). pose proof (pos_nth P Ht) as Pt.
      destruct (Teig (A := fun x => single_site_matvec iter x L W Rr) Pt) as ([en v] & Ev).
      { intros x Sx. rewrite St in Sx. destruct (matvec1_form iter_perm x SL SR SW Sx) as (y & Ey & Sy & _). exists y. split; [exact Ey | congruence]. }
      rewrite Ev. cbn [rbind]. destruct (Heig Ev) as [Sv _]. set (g := tdiv rdiv v (nrm v)) in *. assert (shape g = [m; dd; k]) as Sg by (cbn; rewrite Sv; exact St).
      rewrite St in Pt. apply pos3 in Pt. destruct b.
      - destruct (Tqr (as_matrix g 2)) as (f0 & F0). destruct (qr_at qrf g 2) as [[q rr]| |] eqn:F; try (unfold qr_at in F; rewrite F0 in F; discriminate). cbn [rbind].
        destruct (@qr_at_spec _ qrf Hqr g q rr [m; dd] [k] 2 Sg eq_refl F) as (Sq & Sr & _). cbn [app] in Sq. set (kk := Nat.min (nprod [m; dd]) (nprod [k])) in *.
        assert (0 < kk) as Pk by (unfold kk; cbn; nia). assert (0 < nprod (shape q)) as Pq by (rewrite Sq; apply pos3; lia).
        destruct (Nat.ltb_spec c (length ts - 1)) as [Lt|Ge]; [|eexists; eexists; split; [reflexivity | exact (pos_set (n := c) P Pq)]].
        destruct (nth_error ts (c + 1)) as [u|] eqn:Hu; [|apply nth_error_None in Hu; lia].
        destruct (neighbours (s_chain Sd) Ht Hu St) as (e2 & j & Su). pose proof (pos_nth P Hu) as Pu. rewrite Su in Pu. apply pos3 in Pu.
        assert (nth_error (set_nth c q ts) (c + 1) = Some u) as Hu' by (rewrite nth_set_ne by lia; exact Hu). rewrite (get_some Hu'). cbn [rbind].
        destruct (@ncon_mt R iter iter_perm rr u kk k e2 j Sr Su) as (x & W1 & Sx & _). rewrite W1. cbn [rbind].
        destruct (ncon_left_layer iter_perm SL Sq SW) as (L' & E' & _). rewrite E'. cbn [rbind]. eexists. eexists. split; [reflexivity|].
        cbn [dmps tens]. apply pos_set; [exact (pos_set (n := c) P Pq)|]. rewrite Sx. apply pos3. lia.
      - destruct (Tqr (adjoint (as_matrix g 1))) as (f0 & F0). destruct (rq_at qrf g 1) as [[rr q]| |] eqn:F; try (unfold rq_at in F; rewrite F0 in F; discriminate). cbn [rbind].
        destruct (@rq_at_spec _ qrf Hqr g q rr [m] [dd; k] 1 Sg eq_refl F) as (Sr & Sq & _). cbn [app] in Sr. set (kk := Nat.min (nprod [dd; k]) (nprod [m])) in *.
        assert (0 < kk) as Pk by (unfold kk; cbn; nia). assert (0 < nprod (shape q)) as Pq by (rewrite Sq; apply pos3; lia).
        destruct (Nat.ltb_spec 0 c) as [Lt|Ge]; [|eexists; eexists; split; [reflexivity | exact (pos_set (n := c) P Pq)]].
        destruct (nth_error ts (c - 1)) as [u|] eqn:Hu; [|apply nth_error_None in Hu; lia].
        assert (nth_error ts (c - 1 + 1) = Some t) as Ht' by (replace (c - 1 + 1) with c by lia; exact Ht).
        destruct (chain_shape (s_chain Sd) Hu) as (m2 & e2 & j & Su). destruct (neighbours (s_chain Sd) Hu Ht' Su) as (x1 & x2 & St'). rewrite St in St'. injection St' as -> <- <-.
        pose proof (pos_nth P Hu) as Pu. rewrite Su in Pu. apply pos3 in Pu.
        assert (nth_error (set_nth c q ts) (c - 1) = Some u) as Hu' by (rewrite nth_set_ne by lia; exact Hu). rewrite (get_some Hu'). cbn [rbind].
        destruct (@ncon_tm R iter iter_perm u rr m2 e2 j kk Su Sr) as (x & W1 & Sx & _). rewrite W1. cbn [rbind].
        destruct (ncon_right_layer iter_perm SR Sq SW) as (R' & E' & _). rewrite E'. cbn [rbind]. eexists. eexists. split; [reflexivity|].
        cbn [dmps tens]. apply pos_set; [exact (pos_set (n := c) P Pq)|]. rewrite Sx. apply pos3. lia.
    Qed.

    Lemma optimize_2s_total c d D (b : bool) : D <> Some 0 -> (if b then c + 1 < length (tens (dmps d)) else 0 < c) -> sound c d -> ready c d -> pos (tens (dmps d)) ->
      exists d' e, optimize_2s D b d = Ok (d', e) /\ pos (tens (dmps d')).
    Proof.
      intros HD Hb Sd [RL RR] P. unfold Dmrg.optimize_2s. rewrite (s_centre Sd). pose proof (s_lt Sd) as Lc. set (ts := tens (dmps d)) in *.
      replace (b || (0 <? c)) with true by (destruct b; cbn [orb]; [reflexivity | symmetry; apply Nat.ltb_lt; exact Hb]). cbn [guard].
      assert (exists s, (if b then c else c - 1) = s /\ s <= c <= s + 1 /\ s + 1 < length ts) as (s & -> & Hs & Ls) by (destruct b; eexists; split; try reflexivity; lia).
      destruct (sound_nth (i := s) Sd) as (t1 & m & dd & k & H1 & S1); [fold ts; lia|]. fold ts in H1.
      destruct (nth_error ts (s + 1)) as [t2|] eqn:H2; [|apply nth_error_None in H2; lia]. destruct (neighbours (s_chain Sd) H1 H2 S1) as (ee & j & S2).
      rewrite (get_some H1), (get_some H2). cbn [rbind]. destruct (ncon_bond iter_perm S1 S2) as (x & B1 & Sx & _). rewrite B1. cbn [rbind].
      destruct (RL s) as (L & HL); [lia|]. destruct (RR (s + 1)) as (Rr & HR); [fold ts; lia|].
      destruct (mpo_nth (i := s) Sd) as (W1 & HW1); [fold ts; lia|]. destruct (mpo_nth (i := s + 1) Sd) as (W2 & HW2); [fold ts; lia|].
      rewrite HL, HR, (get_some HW1), (get_some HW2). cbn [rbind].
      destruct (pair_shapes Sd Hs H1 H2 S1 S2 HL HR HW1 HW2) as (w & w' & w'' & SL & SW1 & SW2 & SR).
      pose proof (pos_nth P H1) as Q1. rewrite S1 in Q1. apply pos3 in Q1. pose proof (pos_nth P H2) as Q2. rewrite S2 in Q2. apply pos3 in Q2.
      destruct (Teig (A := fun x => two_site_matvec iter x L W1 W2 Rr) (t := x)) as ([en v] & Ev).
      { rewrite Sx. apply pos4. lia. }
      { intros y Sy. rewrite Sx in Sy. destruct (matvec2_form iter_perm y SL SR SW1 SW2 Sy) as (y' & Ey & Sy' & _). exists y'. split; [exact Ey | congruence]. }
      rewrite Ev. cbn [rbind]. destruct (Heig Ev) as [Sv _]. set (g := tdiv rdiv v (nrm v)) in *. assert (shape g = [m; dd; ee; j]) as Sg by (cbn; rewrite Sv; exact Sx).
      destruct (Tsvd (as_matrix g 2)) as (f0 & F0).
      destruct (svd_at svdf nkeep true D None g 2) as [[[[u sv] vh] tw]| |] eqn:F; try (unfold svd_at in F; rewrite F0 in F; discriminate). cbn [rbind].
      destruct (@svd_at_spec _ _ svdf nkeep Hsvd g u vh sv tw true D None [m; dd] [ee; j] 2 Sg eq_refl F) as (Su & Svh & _). cbn [app] in Su.
      assert (0 < length sv) as Psv.
      { unfold svd_at in F. rewrite F0 in F. destruct f0 as [[u0 s0] v0]. cbn -[as_matrix] in F. injection F as _ <- _ _.
        destruct (Hsvd (m := as_matrix g 2) eq_refl F0) as ((_ & L0 & _) & _). rewrite firstn_length.
        rewrite as_matrix_rows, as_matrix_cols, Sg in L0. cbn in L0. assert (s0 <> []) as N0 by (destruct s0; [cbn in L0; nia | discriminate]).
        pose proof (Hkeep true None HD N0). nia. }
      assert (shape (diagflat sv) = [length sv; length sv]) as Sdg by reflexivity.
      destruct b.
      - destruct (@ncon_mt R iter iter_perm _ _ _ _ _ _ Sdg Svh) as (y & Ey & Sy & _). rewrite Ey. cbn [rbind].
        destruct (ncon_left_layer iter_perm SL Su SW1) as (L' & E' & _). rewrite E'. cbn [rbind]. eexists. eexists. split; [reflexivity|].
        cbn [dmps tens]. apply pos_set; [apply pos_set; [exact P|]|]; [rewrite Su | rewrite Sy]; apply pos3; lia.
      - destruct (@ncon_tm R iter iter_perm _ _ _ _ _ _ Su Sdg) as (y & Ey & Sy & _). rewrite Ey. cbn [rbind].
        destruct (ncon_right_layer iter_perm SR Svh SW2) as (R' & E' & _). rewrite E'. cbn [rbind]. eexists. eexists. split; [reflexivity|].
        cbn [dmps tens]. apply pos_set; [apply pos_set; [exact P|]|]; [rewrite Svh | rewrite Sy]; apply pos3; lia.
    Qed.

    Lemma dposition_pos c d site d' : sound c d -> dposition site d = Ok d' -> pos (tens (dmps d)) -> pos (tens (dmps d')).
    Proof.
      intros Sd H P. unfold Dmrg.dposition in H.
      destruct (negb (Z.of_nat (length (tens (dmps d))) <=? site)%Z); [|discriminate]. destruct (negb (site <? 0)%Z) eqn:G2; [|discriminate].
      cbn [guard] in H. rewrite (s_centre Sd) in H. apply Bool.negb_true_iff, Z.ltb_ge in G2.
      destruct (Z.to_nat site =? c); [injection H as <-; exact P|].
      destruct (mps_position iter qrf svdf nkeep err_ge1 nrm rdiv (dmps d) site) as [[m z]| |] eqn:Q; try discriminate. cbn [rbind fst] in H.
      replace site with (Z.of_nat (Z.to_nat site)) in Q by lia. pose proof (position_pos (s_chain Sd) (s_centre Sd) Q P) as P'.
      destruct (if c <? Z.to_nat site then _ else _) as [e| |]; try discriminate. cbn [rbind] in H. injection H as <-. exact P'.
    Qed.
    Lemma restart_pos c d d' : sound c d -> restart d = Ok d' -> pos (tens (dmps d)) -> pos (tens (dmps d')).
    Proof.
      intros Sd H P. unfold Dmrg.restart in H. destruct (mps_position iter qrf svdf nkeep err_ge1 nrm rdiv (dmps d) 0%Z) as [[m z]| |] eqn:Q; try discriminate. cbn [rbind fst] in H.
      change 0%Z with (Z.of_nat 0) in Q. pose proof (position_pos (s_chain Sd) (s_centre Sd) Q P) as P'.
      unfold compute_right_envs in H. cbn [dmps dmpo lenvs renvs] in H. destruct (centre m); try discriminate.
      destruct (dget (renvs d) (length (tens m) - 1)); try discriminate. cbn [rbind] in H. destruct (add_rights _ _ _ _ _); try discriminate. injection H as <-. exact P'.
    Qed.

    Section OptTotal.
      Variable opt : bool -> dmrg R -> res (dmrg R * R).
      Variable converged : option R -> R -> bool.
      Hypothesis Hopt : forall c d b d' e, sound c d -> opt b d = Ok (d', e) -> step_ok c d (moved b (length (tens (dmps d))) c) d'.
      Variable need : bool -> nat -> nat -> Prop.
      Hypothesis need_right : forall n c, c < n - 1 -> need true n c.
      Hypothesis need_left : forall n c, c < n -> 0 < c -> need false n c.
      Hypothesis Topt : forall c d b, need b (length (tens (dmps d))) c -> sound c d -> ready c d -> pos (tens (dmps d)) -> exists d' e, opt b d = Ok (d', e) /\ pos (tens (dmps d')).
      Notation sweep_right := (sweep_right opt).
      Notation sweep_left := (sweep_left opt).
      Notation run := (run iter qrf svdf nkeep err_ge1 nrm rdiv opt converged).
      Notation sweep := (sweep iter qrf svdf nkeep err_ge1 nrm rdiv opt).
      Notation sweeps := (sweeps iter qrf svdf nkeep err_ge1 nrm rdiv opt converged).

      Lemma sweep_right_total f : forall c d e, length (tens (dmps d)) - 1 - c <= f -> sound c d -> ready c d -> pos (tens (dmps d)) ->
        exists d' e', sweep_right f d e = Ok (d', e') /\ pos (tens (dmps d')).
      Proof.
        induction f as [|f IH]; intros c d e Hf Sd Rd P; cbn [Dmrg.sweep_right]; rewrite (s_centre Sd).
        - destruct (Nat.ltb_spec c (length (tens (dmps d)) - 1)); [lia|]. eauto.
        - destruct (Nat.ltb_spec c (length (tens (dmps d)) - 1)) as [Lt|Ge]; [|eauto].
          destruct (Topt (need_right Lt) Sd Rd P) as (d1 & e1 & F & P1). rewrite F. cbn [rbind fst snd]. pose proof (Hopt Sd F) as K.
          apply (IH (moved true (length (tens (dmps d))) c)); [|apply K | apply K, Rd | exact P1].
          destruct K as (_ & _ & _ & _ & _ & Q). rewrite (phys_len Q). unfold moved. destruct (Nat.ltb_spec c (length (tens (dmps d)) - 1)); lia.
      Qed.
      Lemma sweep_left_total f : forall c d e, c <= f -> sound c d -> ready c d -> pos (tens (dmps d)) ->
        exists d' e', sweep_left f d e = Ok (d', e') /\ pos (tens (dmps d')).
      Proof.
        induction f as [|f IH]; intros c d e Hf Sd Rd P; cbn [Dmrg.sweep_left]; rewrite (s_centre Sd); pose proof (s_lt Sd) as Lc.
        - destruct (Nat.ltb_spec 0 c); [lia|]. eauto.
        - destruct (Nat.ltb_spec 0 c) as [Lt|Ge]; [|eauto].
          destruct (Topt (need_left Lc Lt) Sd Rd P) as (d1 & e1 & F & P1). rewrite F. cbn [rbind fst snd]. pose proof (Hopt Sd F) as K.
          apply (IH (moved false (length (tens (dmps d))) c)); [|apply K | apply K, Rd | exact P1]. unfold moved. lia.
      Qed.
      Lemma sweep_total c d e : sound c d -> ready c d -> pos (tens (dmps d)) -> exists d' e', sweep d e = Ok (d', e') /\ pos (tens (dmps d')).
      Proof.
        intros Sd Rd P. unfold Dmrg.sweep. pose proof (s_lt Sd) as Lc.
        destruct (sweep_right_total (f := length (tens (dmps d))) (c := c) (d := d) e ltac:(lia) Sd Rd P) as (d1 & e1 & F1 & P1). rewrite F1. cbn [rbind fst snd].
        destruct (sweep_right_ok Hopt Sd F1) as (c1 & K1 & E1). pose proof K1 as (S1 & R1 & _ & _ & _ & Q1). pose proof (phys_len Q1) as LN.
        destruct (dposition_total (s := length (tens (dmps d)) - 1) S1 (R1 Rd)) as (d2 & F2); [lia|]. rewrite F2. cbn [rbind].
        destruct (position_ok iter_perm Hqr Hsvd Slb S1 F2) as (c2 & _ & K2). pose proof K2 as (S2 & R2 & _ & _ & _ & Q2). pose proof (phys_len Q2) as LN2.
        apply (sweep_left_total (c := c2)); [pose proof (s_lt S2); lia | exact S2 | exact (R2 (R1 Rd)) | exact (dposition_pos S1 F2 P1)].
      Qed.
      Lemma sweeps_total k : forall c d last e, sound c d -> ready c d -> pos (tens (dmps d)) -> exists f, sweeps k d last e = Ok f.
      Proof.
        induction k as [|k IH]; intros c d last e Sd Rd P; cbn [Dmrg.sweeps]; [eauto|].
        destruct (sweep_total e Sd Rd P) as (d1 & e1 & F & P1). rewrite F. cbn [rbind fst snd]. pose proof (sweep_ok Hopt Sd F) as (S1 & R1 & _).
        destruct (converged last e1); [eauto|]. exact (IH 0 d1 _ _ S1 (R1 Rd) P1).
      Qed.
      Lemma run_total k c d : need true (length (tens (dmps d))) 0 -> 0 < k -> anchored d -> sound c d -> pos (tens (dmps d)) -> exists d' e, run k d = Ok (d', e).
      Proof.
        intros Hn Pk An Sd P. unfold Dmrg.run. destruct k as [|k]; [lia|].
        destruct (restart_total An Sd) as (d1 & F1). rewrite F1. cbn [rbind]. destruct (restart_ok iter_perm Hqr Hsvd Sd F1) as [K1 R1]. specialize (R1 (proj1 An)).
        pose proof K1 as (S1 & _ & _ & _ & _ & Q1). pose proof (phys_len Q1) as LN1. pose proof (s_lt S1) as L1.
        destruct (dposition_total (s := 0) S1 R1 L1) as (d2 & F2). change (Z.of_nat 0) with 0%Z in F2. rewrite F2. cbn [rbind].
        destruct (position_ok iter_perm Hqr Hsvd Slb S1 F2) as (c2 & E2 & K2). assert (c2 = 0) as -> by lia. pose proof K2 as (S2 & R2 & _ & _ & _ & Q2). pose proof (phys_len Q2) as LN2.
        assert (need true (length (tens (dmps d2))) 0) as N2 by (rewrite LN2, LN1; exact Hn).
        destruct (Topt N2 S2 (R2 R1) (dposition_pos S1 F2 (restart_pos Sd F1 P))) as (d3 & e3 & F3 & P3). rewrite F3. cbn [rbind fst snd].
        pose proof (Hopt S2 F3) as (S3 & R3 & _). destruct (sweeps_total (S k) None e3 S3 (R3 (R2 R1)) P3) as ([d4 e4] & F4). eauto.
      Qed.
    End OptTotal.
  End Total.
End Run.
