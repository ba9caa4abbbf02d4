(** * BlockCacheFacts: the key determines the arguments, and the result *)
From Coq Require Import ZArith Decimal DecimalNat DecimalFacts Sorted.
From Verif Require Import Prelude Res ListFacts Charge ChargeFacts ChargeInst BlockSparse BlockSpec BlockFacts BlockDegen BlockReduce BlockMaps BlockPart BlockTr BlockCache.
Set Implicit Arguments.
Unset Strict Implicit.

(** ** strings *)
Definition unhex (h : nat) : nat := if h <? 58 then h - 48 else h - 87.
Lemma unhex_hex d : d < 16 -> unhex (hexdigit d) = d.
Proof. intros H. unfold unhex, hexdigit. destruct (Nat.ltb_spec d 10); [destruct (Nat.ltb_spec (48 + d) 58) | destruct (Nat.ltb_spec (87 + d) 58)]; lia. Qed.
(** a decoder of one escaped character *)
Definition dec1 (l : list nat) : nat * list nat :=
  match l with
  | [] => (0, [])
  | c :: r =>
      if c =? 92 then
        match r with
        | [] => (0, [])
        | e :: r' =>
            if e =? 120 then match r' with h :: k :: r'' => (unhex h * 16 + unhex k, r'') | _ => (0, []) end
            else if e =? 116 then (9, r') else if e =? 110 then (10, r') else if e =? 114 then (13, r') else (e, r')
        end
      else (c, r)
  end.
Lemma dec1_esc q c X : q = 34 \/ q = 39 -> c < 256 -> dec1 (esc q c ++ X) = (c, X).
Proof.
  intros Hq Hc. unfold esc.
  destruct (Nat.eqb_spec c q) as [->|Nq]; cbn [orb].
  { destruct Hq as [-> | ->]; reflexivity. }
  destruct (Nat.eqb_spec c 92) as [->|N92]; [reflexivity|].
  destruct (Nat.eqb_spec c 9) as [->|N9]; [reflexivity|].
  destruct (Nat.eqb_spec c 10) as [->|N10]; [reflexivity|].
  destruct (Nat.eqb_spec c 13) as [->|N13]; [reflexivity|].
  destruct ((c <? 32) || (127 <=? c)).
  - cbn [app dec1]. change (92 =? 92) with true. change (120 =? 120) with true. cbv iota.
    rewrite !unhex_hex; [|apply Nat.mod_upper_bound; lia|apply Nat.div_lt_upper_bound; lia].
    f_equal. rewrite Nat.mul_comm. symmetry. apply Nat.div_mod. lia.
  - cbn [app dec1]. apply Nat.eqb_neq in N92. rewrite N92. reflexivity.
Qed.
Lemma esc_head q c : q = 34 \/ q = 39 -> c < 256 -> exists x r, esc q c = x :: r /\ x <> q.
Proof.
  intros Hq Hc. unfold esc. destruct (Nat.eqb_spec c q) as [->|Nq]; cbn [orb]; [do 2 eexists; split; [reflexivity|]; lia|].
  destruct (c =? 92); [do 2 eexists; split; [reflexivity|]; lia|].
  destruct (c =? 9); [do 2 eexists; split; [reflexivity|]; lia|].
  destruct (c =? 10); [do 2 eexists; split; [reflexivity|]; lia|].
  destruct (c =? 13); [do 2 eexists; split; [reflexivity|]; lia|].
  destruct ((c <? 32) || (127 <=? c)); do 2 eexists; (split; [reflexivity|]; lia).
Qed.
Definition bytes (l : list nat) : Prop := forall c, In c l -> c < 256.
Lemma quote_cases b : quote b = 34 \/ quote b = 39.
Proof. unfold quote. destruct (_ && _); auto. Qed.
Lemma body_inj q a : q = 34 \/ q = 39 -> forall b X Y, bytes a -> bytes b ->
  flat_map (esc q) a ++ q :: X = flat_map (esc q) b ++ q :: Y -> a = b /\ X = Y.
Proof.
  intros Hq. induction a as [|c a IH]; intros [|d b] X Y Ha Hb H; cbn [flat_map app] in H.
  - inversion H. auto.
  - destruct (@esc_head q d Hq) as (x & r & E & N); [apply Hb; left; reflexivity|]. rewrite E in H. inversion H. congruence.
  - destruct (@esc_head q c Hq) as (x & r & E & N); [apply Ha; left; reflexivity|]. rewrite E in H. inversion H. congruence.
  - apply (f_equal dec1) in H. rewrite <- !app_assoc in H. rewrite !dec1_esc in H by first [assumption | apply Ha; left; reflexivity | apply Hb; left; reflexivity].
    injection H as <- H. apply IH in H; [destruct H as [-> ->]; auto| |]; intros z Hz; [apply Ha | apply Hb]; right; exact Hz.
Qed.
Lemma repr_inj a b X Y : bytes a -> bytes b -> repr a ++ X = repr b ++ Y -> a = b /\ X = Y.
Proof.
  intros Ha Hb H. unfold repr in H. cbn [app] in H. injection H as Eq H. rewrite <- Eq in H. rewrite <- !app_assoc in H.
  apply (body_inj (quote_cases a) Ha Hb H).
Qed.
Lemma reprs_inj L : forall L' X Y, Forall bytes L -> Forall bytes L' -> hd 0 X <> 98 -> hd 0 Y <> 98 ->
  flat_map repr L ++ X = flat_map repr L' ++ Y -> L = L' /\ X = Y.
Proof.
  induction L as [|a L IH]; intros [|b L'] X Y F F' HX HY H; cbn [flat_map app] in H.
  - auto.
  - rewrite H in HX. exfalso. apply HX. reflexivity.
  - rewrite <- H in HY. exfalso. apply HY. reflexivity.
  - rewrite <- !app_assoc in H. inversion F; subst. inversion F'; subst. apply repr_inj in H; try assumption.
    destruct H as [-> H]. apply IH in H; try assumption. destruct H as [-> ->]. auto.
Qed.
Lemma udigits_range d c : In c (udigits d) -> 48 <= c <= 57.
Proof. induction d; cbn [udigits In]; [tauto| | | | | | | | | |]; intros [<- | H]; auto; lia. Qed.
Lemma udigits_inj d : forall d', udigits d = udigits d' -> d = d'.
Proof. induction d; intros [] H; cbn [udigits] in H; try discriminate; [reflexivity| | | | | | | | | |]; injection H as H; f_equal; auto. Qed.
Lemma str_int_head n X : exists c r, str_int n ++ X = c :: r /\ 48 <= c <= 57.
Proof.
  unfold str_int. destruct (udigits (Nat.to_uint n)) as [|c r] eqn:E.
  - change [] with (udigits Nil) in E. apply udigits_inj in E. assert (n = 0) as -> by (rewrite <- (Unsigned.of_to n), E; reflexivity).
    discriminate E.
  - exists c, (r ++ X). split; [reflexivity|]. apply (@udigits_range (Nat.to_uint n)). rewrite E. left. reflexivity.
Qed.
Lemma digits_split a : forall b X Y, (forall c, In c a -> c <> 98) -> (forall c, In c b -> c <> 98) ->
  a ++ 98 :: X = b ++ 98 :: Y -> a = b /\ X = Y.
Proof.
  induction a as [|c a IH]; intros [|d b] X Y Ha Hb H; cbn [app] in H; inversion H; subst; auto.
  - exfalso. apply (Hb 98); [left|]; reflexivity.
  - exfalso. apply (Ha 98); [left|]; reflexivity.
  - match goal with E : _ ++ _ = _ |- _ => apply IH in E end; [|intros z Hz; apply Ha; right; exact Hz|intros z Hz; apply Hb; right; exact Hz].
    intuition congruence.
Qed.
Lemma str_int_inj n m X Y : str_int n ++ 98 :: X = str_int m ++ 98 :: Y -> n = m /\ X = Y.
Proof.
  intros H. apply digits_split in H; [|intros c Hc; apply udigits_range in Hc; lia|intros c Hc; apply udigits_range in Hc; lia].
  destruct H as [H ->]. split; [|reflexivity]. apply udigits_inj in H. rewrite <- (Unsigned.of_to n), H. apply Unsigned.of_to.
Qed.

(** ** bytes of arrays *)
Lemma chunks_inj A B (f : A -> list B) w (P : A -> Prop) : 0 < w -> (forall x, P x -> length (f x) = w) ->
  (forall x y, P x -> P y -> f x = f y -> x = y) -> forall l l', Forall P l -> Forall P l' ->
  flat_map f l = flat_map f l' -> l = l'.
Proof.
  intros Hw Hl Hi. induction l as [|x l IH]; intros [|y l'] F F' H; cbn [flat_map] in H; [reflexivity| | |].
  - inversion F'; subst. apply (f_equal (@length B)) in H. rewrite app_length, Hl in H by assumption. cbn in H. lia.
  - inversion F; subst. apply (f_equal (@length B)) in H. rewrite app_length, Hl in H by assumption. cbn in H. lia.
  - inversion F; subst. inversion F'; subst.
    assert (f x = f y /\ flat_map f l = flat_map f l') as [E1 E2].
    { split; [apply (f_equal (firstn w)) in H | apply (f_equal (skipn w)) in H].
      - rewrite !firstn_app_exact in H by (apply Hl; assumption). exact H.
      - rewrite !skipn_app_exact in H by (apply Hl; assumption). exact H. }
    f_equal; auto.
Qed.
Definition is16 (z : Z) : Prop := (-32768 <= z <= 32767)%Z.
Lemma int16_inj x y : is16 x -> is16 y -> int16_bytes x = int16_bytes y -> x = y.
Proof.
  unfold is16, int16_bytes. intros Hx Hy H. injection H as E1 E2.
  pose proof (Z.mod_pos_bound x 256). pose proof (Z.mod_pos_bound y 256).
  pose proof (Z.mod_pos_bound (x / 256) 256). pose proof (Z.mod_pos_bound (y / 256) 256).
  apply Z2Nat.inj in E1; [|lia|lia]. apply Z2Nat.inj in E2; [|lia|lia].
  pose proof (Z.div_mod x 256). pose proof (Z.div_mod y 256).
  pose proof (Z.div_mod (x / 256) 256). pose proof (Z.div_mod (y / 256) 256).
  pose proof (Z.div_le_lower_bound x 256 (-128)). pose proof (Z.div_lt_upper_bound x 256 128).
  pose proof (Z.div_le_lower_bound y 256 (-128)). pose proof (Z.div_lt_upper_bound y 256 128). lia.
Qed.
Lemma int16_bytes_ok z : bytes (int16_bytes z).
Proof.
  intros c [<- | [<- | []]].
  - pose proof (Z.mod_pos_bound z 256). lia.
  - pose proof (Z.mod_pos_bound (z / 256) 256). lia.
Qed.
Lemma flat_map_bytes A (f : A -> list nat) l : (forall x, bytes (f x)) -> bytes (flat_map f l).
Proof. intros H c Hc. apply in_flat_map in Hc. destruct Hc as (x & _ & Hx). apply (H x c Hx). Qed.

Definition is_row (w : nat) (r : list Z) : Prop := length r = w /\ Forall is16 r.
Lemma row_bytes_inj w : 0 < w -> forall c c', Forall (is_row w) c -> Forall (is_row w) c' ->
  flat_map (flat_map int16_bytes) c = flat_map (flat_map int16_bytes) c' -> c = c'.
Proof.
  intros Hw. apply (@chunks_inj _ _ (flat_map int16_bytes) (2 * w)); [lia| |].
  - clear Hw. intros r [<- _]. induction r as [|z r IH]; [reflexivity|]. cbn [flat_map length app int16_bytes] in *. rewrite IH. lia.
  - intros x y [Lx Fx] [Ly Fy]. apply (@chunks_inj _ _ int16_bytes 2 is16); auto using int16_inj; lia.
Qed.
Theorem to_string_inj w cs fs p order cs' fs' p' order' : 0 < w ->
  Forall (Forall (is_row w)) cs -> Forall (Forall (is_row w)) cs' ->
  Forall (fun i => (Z.of_nat i <= 32767)%Z) order -> Forall (fun i => (Z.of_nat i <= 32767)%Z) order' ->
  to_string cs fs p order = to_string cs' fs' p' order' -> cs = cs' /\ fs = fs' /\ p = p' /\ order = order'.
Proof.
  intros Hw Hc Hc' Ho Ho' H. unfold to_string in H.
  set (g := fun c : list (list Z) => flat_map (flat_map int16_bytes) c) in *.
  assert (forall L (F : list bool) X, flat_map (fun c => repr (g c)) L ++ repr (flat_map bool_bytes F) ++ X =
                     flat_map repr (map g L ++ [flat_map bool_bytes F]) ++ X) as E.
  { intros L F X. rewrite flat_map_app, <- app_assoc. cbn [flat_map]. rewrite app_nil_r. f_equal.
    rewrite !flat_map_concat_map, map_map. reflexivity. }
  rewrite !E in H. clear E.
  assert (forall L F, Forall bytes (map g L ++ [flat_map bool_bytes F])) as HB.
  { intros L F. apply Forall_app. split.
    - apply Forall_forall. intros b Hb. apply in_map_iff in Hb. destruct Hb as (c & <- & _).
      apply flat_map_bytes. intros r. apply flat_map_bytes, int16_bytes_ok.
    - constructor; [|constructor]. apply flat_map_bytes. intros [] c [<- | []]; lia. }
  apply reprs_inj in H; auto.
  2: { destruct (str_int_head p (repr (flat_map (fun i => int16_bytes (Z.of_nat i)) order))) as (c & r & -> & Hr). cbn. lia. }
  2: { destruct (str_int_head p' (repr (flat_map (fun i => int16_bytes (Z.of_nat i)) order'))) as (c & r & -> & Hr). cbn. lia. }
  destruct H as [H1 H2].
  apply app_inj_tail in H1. destruct H1 as [H1 H3].
  assert (p = p' /\ repr (flat_map (fun i => int16_bytes (Z.of_nat i)) order) = repr (flat_map (fun i => int16_bytes (Z.of_nat i)) order')) as [-> H4].
  { unfold repr in H2 |- *. apply str_int_inj in H2. destruct H2 as [-> H2]. split; [reflexivity|]. rewrite H2. reflexivity. }
  split; [|split; [|split; [reflexivity|]]].
  - revert Hc cs' Hc' H1. clear -Hw. induction cs as [|c cs IH]; intros F [|c' cs'] F' H; cbn [map] in H; try discriminate; [reflexivity|].
    injection H as H1 H2. inversion F; subst. inversion F'; subst. f_equal; [|apply IH; assumption].
    apply (@row_bytes_inj w Hw); assumption.
  - revert H3. apply (@chunks_inj _ _ bool_bytes 1 (fun _ => True)); auto.
    + intros [] [] _ _; try reflexivity; discriminate.
    + apply Forall_forall. auto.
    + apply Forall_forall. auto.
  - rewrite <- (app_nil_r (repr _)) in H4. rewrite <- (app_nil_r (repr (flat_map _ order'))) in H4.
    apply repr_inj in H4; try (apply flat_map_bytes; intros; apply int16_bytes_ok). destruct H4 as [H4 _].
    revert H4. apply (@chunks_inj _ _ (fun i => int16_bytes (Z.of_nat i)) 2 (fun i => (Z.of_nat i <= 32767)%Z)); auto.
    intros x y Hx Hy E. apply int16_inj in E; unfold is16; lia.
Qed.

(** ** the result is determined by the charges of the legs, not by how they are stored *)
Section Det.
  Context {G : chg}.
  Variables lim blim junk : nat.
  Hypothesis lim_pos : 0 < lim.
  Notation bc := (bc G).
  Definition srt : list G -> Prop := StronglySorted (fun x y : G => qleb x y = true).
  Lemma srt_ext (l : list G) : forall l', srt l -> srt l' -> NoDup l -> NoDup l' -> (forall x, In x l <-> In x l') -> l = l'.
  Proof.
    induction l as [|x l IH]; intros [|y l'] S S' N N' E.
    - reflexivity.
    - exfalso. apply (proj2 (E y)). left. reflexivity.
    - exfalso. apply (proj1 (E x)). left. reflexivity.
    - inversion S as [|? ? S1 F1]; subst. inversion S' as [|? ? S2 F2]; subst. inversion N; subst. inversion N'; subst.
      rewrite Forall_forall in F1, F2.
      assert (x = y) as <-.
      { destruct (proj1 (E x) (or_introl eq_refl)) as [->|Hx]; [reflexivity|].
        destruct (proj2 (E y) (or_introl eq_refl)) as [->|Hy]; [reflexivity|].
        apply qanti; [apply F1, Hy | apply F2, Hx]. }
      f_equal. apply IH; auto. intros z. split; intros Hz.
      + destruct (proj1 (E z) (or_intror Hz)) as [->|]; [contradiction | assumption].
      + destruct (proj2 (E z) (or_intror Hz)) as [->|]; [contradiction | assumption].
  Qed.

  (** shape of the result *)
  Lemma rbind_ok A B (m : res A) (k : A -> res B) y : rbind m k = Ok y -> exists x, m = Ok x /\ k x = Ok y.
  Proof. destruct m as [x| |]; cbn; intros H; [exists x; auto | discriminate | discriminate]. Qed.
  Ltac inv := repeat match goal with
    | H : rbind _ _ = Ok _ |- _ => let x := fresh "x" in let E := fresh "E" in apply rbind_ok in H; destruct H as (x & E & H); cbv zeta in H
    | H : Ok _ = Ok _ |- _ => injection H as <-
    | H : Raise = Ok _ |- _ => discriminate H
    end.
  Lemma diag_charges cs fs p (B : blocks) : diag_blocks lim blim cs fs p = Ok B ->
    if (p =? 0) || (p =? length cs) then rep (bqs B) = [qid] else srt (rep (bqs B)).
  Proof.
    unfold diag_blocks. destruct ((p =? 0) || (p =? length cs)); intros H; inv.
    - destruct cs; [discriminate|]. inv. reflexivity.
    - destruct (_ =? 0) in H.
      + inv. constructor.
      + inv. cbn [bqs]. rewrite rep_Lab_seq. apply isect_sorted.
  Qed.
  Lemma tr_charges cs fs p order (B : blocks) : tr_blocks lim blim junk cs fs p order = Ok B -> order <> seq 0 (length cs) ->
    srt (rep (bqs B)) /\
    ((p = 0 \/ p = length cs) -> exists op ru cd, find_best_partition (map (fun c => bdim c) cs) = Ok op /\
      unique_fused (firstn op cs) (firstn op fs) = Ok ru /\ fused_degens lim (skipn op cs) (map negb (skipn op fs)) = Ok cd /\
      (rep (bqs B) = [] <-> isect (uniques ru) (uniques (fst cd)) = [])).
  Proof.
    unfold tr_blocks. intros H Ho. destruct (leqb _ _ _) eqn:E in H; [apply leqb_true in E; contradiction|]. clear E. cbv zeta in H. inv.
    rename x into op. rename x0 into ru. rename x1 into cd. destruct (Nat.eqb_spec (length (isect (uniques ru) (uniques (fst cd)))) 0) as [Z|NZ].
    - inv. split; [constructor|]. intros _. exists op, ru, cd. repeat (split; [assumption|]). cbn [bqs rep gather map]. apply length_zero_iff_nil in Z.
      rewrite Z. split; auto.
    - inv.
      assert (forall bq : list G, length bq = 1 -> bq = [] <-> isect (uniques ru) (uniques (fst cd)) = []) as Hne.
      { intros bq L. split; intros H0; [subst; discriminate|]. rewrite H0 in NZ. cbn in NZ. lia. }
      destruct (p =? 0) eqn:Ep; [|destruct (p =? length cs) eqn:Ep2]; inv.
      + destruct (Nat.eqb_spec (length (gather 0 (snd x1) (locs_in (uniques (fst x1)) (isect (uniques (@identity_charges G 1)) (uniques (fst x1)))))) 1) as [L|L] in H; [|discriminate].
        inv. cbn [bqs]. rewrite rep_Lab_seq. split; [apply isect_sorted|]. intros _. exists op, ru, cd. repeat (split; [assumption|]).
        apply Hne. unfold gather, locs_in in L. rewrite !map_length in L. exact L.
      + destruct (Nat.eqb_spec (length (gather 0 (snd x1) (locs_in (uniques (fst x1)) (isect (uniques (fst x1)) (uniques (@identity_charges G 1)))))) 1) as [L|L] in H; [|discriminate].
        inv. cbn [bqs]. rewrite rep_Lab_seq. split; [apply isect_sorted|]. intros _. exists op, ru, cd. repeat (split; [assumption|]).
        apply Hne. unfold gather, locs_in in L. rewrite !map_length in L. exact L.
      + cbn [bqs]. rewrite rep_Lab_seq. split; [apply isect_sorted|]. intros [-> | ->]; exfalso; [discriminate Ep | rewrite Nat.eqb_refl in Ep2; discriminate Ep2].
  Qed.
  Lemma legs_rep (cs cs' : list bc) fs : map (fun c => rep c) cs = map (fun c => rep c) cs' -> legs cs fs = legs cs' fs.
  Proof. intros E. unfold legs. rewrite E. reflexivity. Qed.
  Lemma rep_dims (cs cs' : list bc) : map (fun c => rep c) cs = map (fun c => rep c) cs' -> map (fun c => bdim c) cs = map (fun c => bdim c) cs'.
  Proof.
    intros E. rewrite (map_ext (fun c : bc => bdim c) (fun c : bc => length (rep c))) by (intros; apply bdim_rep).
    rewrite (map_ext (fun c : bc => bdim c) (fun c : bc => length (rep c))) by (intros; apply bdim_rep).
    rewrite <- (map_map (fun c : bc => rep c)), <- (map_map (fun c : bc => rep c) _ cs'), E. reflexivity.
  Qed.
  Theorem tr_blocks_rep (cs cs' : list bc) fs p order B B' : all_ok cs -> all_ok cs' -> map (fun c => rep c) cs = map (fun c => rep c) cs' ->
    length cs = length fs -> cs <> [] -> p <= length cs -> is_perm (length cs) order ->
    tr_blocks lim blim junk cs fs p order = Ok B -> tr_blocks lim blim junk cs' fs p order = Ok B' ->
    rep (bqs B) = rep (bqs B') /\ bmaps B = bmaps B' /\ bdims B = bdims B'.
  Proof.
    intros Hok Hok' E L Hne Hp Hperm H H'.
    assert (length cs = length cs') as LL by (apply (f_equal (@length _)) in E; rewrite !map_length in E; exact E).
    assert (Hne' : cs' <> []) by (intros ->; destruct cs; [congruence | discriminate]).
    destruct (@tr_blocks_spec G lim blim junk lim_pos cs fs p order) as (B0 & E0 & S0); try assumption.
    destruct (@tr_blocks_spec G lim blim junk lim_pos cs' fs p order) as (B1 & E1 & S1); try assumption; try congruence.
    rewrite H in E0. injection E0 as <-. rewrite H' in E1. injection E1 as <-.
    rewrite <- (@legs_rep cs cs' fs E) in S1. destruct S0 as (_ & _ & N0 & M0 & D0 & I0 & J0). destruct S1 as (_ & _ & N1 & M1 & D1 & I1 & J1).
    assert (rep (bqs B) = rep (bqs B')) as R; [|split; [exact R|]; rewrite M0, M1, D0, D1, R; auto].
    assert (length order = length cs) as Lo by (apply is_perm_length, Hperm).
    destruct (list_eq_dec Nat.eq_dec order (seq 0 (length cs))) as [->|No].
    - unfold tr_blocks in H, H'. rewrite <- LL in H'. assert (leqb Nat.eq_dec (seq 0 (length cs)) (seq 0 (length cs)) = true) as T by (apply leqb_true; reflexivity).
      rewrite T in H, H'. apply diag_charges in H. apply diag_charges in H'. rewrite <- LL in H'.
      destruct ((p =? 0) || (p =? length cs)) eqn:Ep; [congruence|]. apply orb_false_iff in Ep. destruct Ep as [P1 P2].
      apply Nat.eqb_neq in P1, P2. apply srt_ext; auto. intros q. split; intros Hq.
      + apply J0 in Hq. apply I1; apply Hq; lia.
      + apply J1 in Hq. apply I0; apply Hq; lia.
    - pose proof (tr_charges H No) as [S0 C0]. rewrite LL in No. pose proof (tr_charges H' No) as [S1 C1]. rewrite <- LL in C1.
      destruct (Nat.eq_dec p 0) as [P1|P1]; [|destruct (Nat.eq_dec p (length cs)) as [P2|P2]].
      3: { apply srt_ext; auto. intros q. split; intros Hq.
           + apply J0 in Hq. apply I1; apply Hq; lia.
           + apply J1 in Hq. apply I0; apply Hq; lia. }
      1-2: assert (p = 0 \/ p = length cs) as P by auto;
        destruct (C0 P) as (op & ru & cd & Eop & Er & Ec & X); destruct (C1 P) as (op' & ru' & cd' & Eop' & Er' & Ec' & X');
        rewrite (rep_dims E), Eop' in Eop; injection Eop as <-.
      1-2: assert (2 <= length cs) as H2 by (
        destruct cs as [|c1 [|c2 cs2]]; [congruence | | cbn; lia]; exfalso; rewrite <- LL in No;
        destruct order as [|i [|j o]]; cbn in Lo; try discriminate;
        assert (i < 1) as Hi by (apply (@is_perm_In _ _ i Hperm); left; reflexivity); apply No; replace i with 0 by lia; reflexivity).
      1-2: assert (length (map (fun c => bdim c) cs') = length cs) as Ld by (rewrite map_length; auto);
        destruct (@find_best_partition_ok (map (fun c => bdim c) cs')) as (op & Eop & Hop1 & Hop2); [lia|]; rewrite Eop' in Eop; injection Eop as <-.
      1-2: assert (forall cs0, length cs0 = length cs -> length (firstn op' cs0) = length (firstn op' fs) /\ length (skipn op' cs0) = length (map negb (skipn op' fs)) /\
          firstn op' cs0 <> [] /\ skipn op' cs0 <> ([] : list bc)) as Aux by (
          intros cs0 L0; rewrite map_length, !firstn_length, !skipn_length; repeat split; try lia;
          intros X0; apply (f_equal (@length bc)) in X0; rewrite ?firstn_length, ?skipn_length in X0; cbn in X0; lia).
      1-2: destruct (Aux cs eq_refl) as (A1 & A2 & A3 & A4); destruct (Aux cs' (eq_sym LL)) as (B1 & B2 & B3 & B4);
        destruct (unique_fused_spec (@all_ok_firstn _ op' cs Hok) A1 A3) as (u0 & F0 & _ & Ru0 & U0 & _);
        destruct (unique_fused_spec (@all_ok_firstn _ op' cs' Hok') B1 B3) as (u1 & F1 & _ & Ru1 & U1 & _);
        destruct (fused_degens_spec lim_pos (@all_ok_skipn _ op' cs Hok) A2 A4) as (c0 & n0 & G0 & (_ & Rc0 & _ & V0 & _) & _);
        destruct (fused_degens_spec lim_pos (@all_ok_skipn _ op' cs' Hok') B2 B4) as (c1 & n1 & G1 & (_ & Rc1 & _ & V1 & _) & _);
        rewrite F0 in Er; injection Er as <-; rewrite F1 in Er'; injection Er' as <-;
        rewrite G0 in Ec; injection Ec as <-; rewrite G1 in Ec'; injection Ec' as <-; cbn [fst] in X, X';
        rewrite <- Ru0, <- Rc0 in X; rewrite <- Ru1, <- Rc1 in X'.
      1-2: assert (isect (rep u0) (rep c0) = isect (rep u1) (rep c1)) as EI by (
        assert (legs (firstn op' cs) (firstn op' fs) = legs (firstn op' cs') (firstn op' fs)) as EL1 by (apply legs_rep; rewrite <- !firstn_map, E; reflexivity);
        assert (legs (skipn op' cs) (map negb (skipn op' fs)) = legs (skipn op' cs') (map negb (skipn op' fs))) as EL2 by (apply legs_rep; rewrite <- !skipn_map, E; reflexivity);
        rewrite EL1 in U0; rewrite EL2 in V0;
        apply isect_ext; intros x; [rewrite U0, U1 | rewrite V0, V1]; reflexivity).
      1-2: rewrite EI in X; rewrite <- X' in X; clear - X J0 J1 N0 N1 P Lo.
      1-2: assert (forall q, In q (rep (bqs B)) -> q = qid) as K0 by (intros q Hq; apply (proj1 (J0 q Hq)); lia);
        assert (forall q, In q (rep (bqs B')) -> q = qid) as K1 by (intros q Hq; apply (proj1 (J1 q Hq)); lia);
        assert (forall l : list G, NoDup l -> (forall q, In q l -> q = qid) -> l = [] \/ l = [qid]) as One by (
          intros [|a [|b l]] Nl Hl; [auto | right; rewrite (Hl a) by (left; reflexivity); reflexivity|];
          exfalso; inversion Nl; subst; rewrite (Hl a), (Hl b) in * by (cbn; auto); cbn in *; tauto);
        destruct (One _ N0 K0) as [E0|E0], (One _ N1 K1) as [E1|E1]; try congruence;
        [apply X in E0; congruence | apply X in E1; congruence].
  Qed.
End Det.

(** ** the cache *)
Lemma ok_row_is_row ss : forallb ok_sym ss = true -> forall r, ok_row ss r = true -> is_row (length ss) r.
Proof.
  unfold is_row. induction ss as [|s ss IH]; intros Hs r Hr.
  - apply ok_row_nil in Hr. subst. split; [reflexivity | constructor].
  - cbn in Hs. apply andb_true_iff in Hs. destruct Hs as [S1 S2]. apply ok_row_inv in Hr. destruct Hr as (x & r' & -> & Hx & Hr).
    destruct (IH S2 r' Hr) as [L F]. split; [cbn; rewrite L; reflexivity|]. constructor; [|exact F]. unfold is16.
    destruct s as [| |n]; [apply ok1_U1; exact Hx | apply ok1_Z2 in Hx; lia | apply ok1_ZN in Hx; apply ok_sym_ZN in S1; lia].
Qed.
Section Transparent.
  Variables lim blim junk : nat.
  Hypothesis lim_pos : 0 < lim.
  Variable ss : list sym.
  Variable H : forallb ok_sym ss = true.
  Hypothesis ss_ne : ss <> [].
  (** arguments as the tensors of the library provide them: consistent charges of the symmetry [ss], one flow per leg,
      a permutation of the legs *)
  Definition good (c : call) : Prop :=
    exists cs fs p order, c = @Call ss H cs fs p order /\ all_ok cs /\ length cs = length fs /\ cs <> [] /\ p <= length cs /\
      is_perm (length cs) order /\ (Z.of_nat (length cs) <= 32768)%Z.
  Lemma rows_is_row (c : bc (sym_chg H)) : Forall (is_row (length ss)) (rows c).
  Proof.
    apply Forall_forall. intros r Hr. apply in_map_iff in Hr. destruct Hr as ([a Ha] & <- & _). apply ok_row_is_row; assumption.
  Qed.
  Lemma rows_inj (cs cs' : list (bc (sym_chg H))) : map (fun x => rows x) cs = map (fun x => rows x) cs' ->
    map (fun c => rep c) cs = map (fun c => rep c) cs'.
  Proof.
    revert cs'. induction cs as [|c cs IH]; intros [|c' cs'] E; cbn [map] in E; try discriminate; [reflexivity|].
    injection E as E1 E2. cbn [map]. f_equal; [|auto]. clear -E1. unfold rows in E1. revert E1. generalize (rep c), (rep c').
    intros l. induction l as [|x l IH]; intros [|y l'] E; cbn [map] in E; try discriminate; [reflexivity|].
    injection E as E1 E2. f_equal; [apply row_eq, E1 | apply IH, E2].
  Qed.
  Theorem key_determines c c' : good c -> good c' -> key c = key c' -> compute lim blim junk c = compute lim blim junk c'.
  Proof.
    intros (cs & fs & p & order & -> & Hok & L & Hne & Hp & Hperm & Hl) (cs' & fs' & p' & order' & -> & Hok' & L' & Hne' & Hp' & Hperm' & Hl') E.
    unfold key in E. cbn [k_cs k_fs k_p k_order k_H k_ss] in E.
    apply (@to_string_inj (length ss)) in E.
    - destruct E as (E & <- & <- & <-). apply rows_inj in E. unfold compute. cbn [k_cs k_fs k_p k_order k_H k_ss].
      destruct (@tr_blocks_spec _ lim blim junk lim_pos cs fs p order) as (B & EB & _); try assumption.
      destruct (@tr_blocks_spec _ lim blim junk lim_pos cs' fs p order) as (B' & EB' & _); try assumption.
      rewrite EB, EB'. cbn [rbind]. f_equal. unfold found_of, rows.
      destruct (@tr_blocks_rep _ lim blim junk lim_pos cs cs' fs p order B B') as (-> & -> & ->); try assumption. reflexivity.
    - destruct ss; [congruence | cbn; lia].
    - apply Forall_forall. intros r Hr. apply in_map_iff in Hr. destruct Hr as (c & <- & _). apply rows_is_row.
    - apply Forall_forall. intros r Hr. apply in_map_iff in Hr. destruct Hr as (c & <- & _). apply rows_is_row.
    - apply Forall_forall. intros i Hi. apply (@is_perm_In _ _ i Hperm) in Hi. lia.
    - apply Forall_forall. intros i Hi. apply (@is_perm_In _ _ i Hperm') in Hi. lia.
  Qed.
  Definition valid_cache (d : cache) : Prop := forall k v, In (k, v) d -> exists c, good c /\ key c = k /\ compute lim blim junk c = Ok v.
  Lemma lookup_In k d v : lookup k d = Some v -> In (k, v) d.
  Proof.
    induction d as [|[t w] d IH]; cbn [lookup]; [discriminate|]. destruct (list_eq_dec Nat.eq_dec k t) as [->|N].
    - injection 1 as ->. left. reflexivity.
    - intros E. right. apply IH, E.
  Qed.
  Lemma find_ok c on d : good c -> valid_cache d ->
    fst (find lim blim junk c (on, d)) = compute lim blim junk c /\ valid_cache (snd (snd (find lim blim junk c (on, d)))).
  Proof.
    intros Hc Hd. unfold find. destruct (if on then lookup (key c) d else None) as [v|] eqn:E.
    - destruct on; [|discriminate]. apply lookup_In, Hd in E. destruct E as (c' & G' & K & <-). cbn [fst snd].
      split; [apply key_determines; auto | exact Hd].
    - destruct (compute lim blim junk c) as [v| |] eqn:Ec; cbn [fst snd]; (split; [reflexivity|]); try exact Hd.
      destruct (on && stores c v); [|exact Hd]. intros k w [Ew|Hw]; [|apply Hd, Hw]. injection Ew as <- <-. exists c. auto.
  Qed.
  (** every block search the computation makes has good arguments *)
  Fixpoint good_run A (p : prog A) : Prop :=
    match p with
    | Ret _ => True
    | Find c k => good c /\ good_run (k (compute lim blim junk c))
    | Admin _ k => good_run k
    end.
  Theorem run_transparent A (p : prog A) : forall on d, good_run p -> valid_cache d ->
    fst (run lim blim junk p (on, d)) = run_uncached lim blim junk p /\ valid_cache (snd (snd (run lim blim junk p (on, d)))).
  Proof.
    induction p as [a|c k IH|f k IH]; intros on d Hg Hd; cbn [run run_uncached].
    - auto.
    - destruct Hg as [Hc Hg]. destruct (@find_ok c on d Hc Hd) as [E1 E2]. destruct (find lim blim junk c (on, d)) as [v [on' d']].
      cbn [fst snd] in E1, E2. subst v. apply IH; assumption.
    - cbn [snd]. destruct (f (on, d)) as [on' cl]. apply IH; [exact Hg|]. destruct cl; [intros k0 v []|exact Hd].
  Qed.
End Transparent.
