(** PolyDom.v: polynomials and evaluation domains. *)
From Verif Require Import Base Spec Tools ToolsProofs KZGSpec KZGProofs SoundSpec Sound ProdPoly PlonkQuot.
Local Open Scope F_scope.

Section PolyDom.
Context {F : Type} {fo : FieldOps F} {fl : FieldLaws F} {po : PrimeFieldOps F} {pl : PrimeFieldLaws F}.
Add Field Fpolydom : F_th.

(** [omega] generates a domain of size n. *)
Definition domain_of (omega : F) (n : nat) : Prop := (0 < n)%nat /\ fpow omega n = 1 /\ NoDup (map (fpow omega) (seq 0 n)).

Lemma domain_neq0 omega n : domain_of omega n -> omega <> 0.
Proof. intros [H [E _]] Z. subst. rewrite fpow_0_l in E by auto. symmetry in E. now apply f1_neq_0 in E. Qed.
Lemma domain_pow omega n k : domain_of omega n -> (0 < k < n)%nat -> fpow omega k <> 1.
Proof.
  intros [Hn [E N]] Hk E1. assert (nth k (map (fpow omega) (seq 0 n)) 0 = nth 0 (map (fpow omega) (seq 0 n)) 0) as X.
  { rewrite !nth_map_seq by lia. cbn. exact E1. }
  apply (proj1 (NoDup_nth (map (fpow omega) (seq 0 n)) 0) N k 0%nat) in X; [lia| |]; rewrite map_length, seq_length; lia.
Qed.
Lemma nodup_map_inj {A B} (f : A -> B) l : (forall x y, In x l -> In y l -> f x = f y -> x = y) -> NoDup l -> NoDup (map f l).
Proof.
  intros H N. induction N as [|x l Hx N IH]; cbn; constructor.
  - intros Hin. apply in_map_iff in Hin. destruct Hin as [y [E Hy]]. apply Hx. rewrite (H x y); auto; [now left|now right].
  - apply IH. intros a b Ha Hb. apply H; now right.
Qed.
Lemma domain_size omega n : domain_of omega n -> from_Z (Z.of_nat n) <> (0 : F).
Proof.
  intros D Z. pose proof (domain_neq0 _ _ D) as O. destruct D as [Hn [E N]].
  assert (NoDup (map (fun x => Z.to_nat (to_Z x - 1)) (map (fpow omega) (seq 0 n)))) as N1.
  { apply nodup_map_inj; auto. intros x y Hx Hy Exy. apply in_map_iff in Hx, Hy. destruct Hx as [i [<- _]], Hy as [j [<- _]].
    assert (forall k, (1 <= to_Z (fpow omega k))%Z) as P1.
    { intros k. destruct (to_Z_range (fpow omega k)) as [A _]. destruct (Z.eq_dec (to_Z (fpow omega k)) 0) as [Z0|]; [|lia].
      exfalso. apply (fpow_neq_0 omega k O). rewrite <- (from_to_Z (fpow omega k)), Z0. apply from_Z_0. }
    pose proof (P1 i). pose proof (P1 j). rewrite <- (from_to_Z (fpow omega i)), <- (from_to_Z (fpow omega j)). f_equal. lia. }
  assert (n <= Z.to_nat (modulus (F:=F) - 1))%nat as L.
  { rewrite <- (seq_length n 0), <- (map_length (fpow omega)), <- (map_length (fun x => Z.to_nat (to_Z x - 1))) at 1.
    rewrite <- (seq_length (Z.to_nat (modulus (F:=F) - 1)) 0). apply NoDup_incl_length; auto. intros k Hk. apply in_map_iff in Hk. destruct Hk as [x [<- _]].
    apply in_seq. pose proof (to_Z_range x). pose proof (modulus_gt1 (F:=F)). lia. }
  apply (f_equal to_Z) in Z. rewrite to_from_Z, <- from_Z_0, to_from_Z, Z.mod_0_l, Z.mod_small in Z; lia.
Qed.
Lemma from_Z_sum n : from_Z (Z.of_nat n) = sumn n (fun _ => (1 : F)).
Proof. induction n as [|n IH]; [apply from_Z_0|]. replace (Z.of_nat (S n)) with (Z.of_nat n + 1)%Z by lia. rewrite from_Z_add, from_Z_1, IH. reflexivity. Qed.
(** sums of powers *)
Lemma domain_sum omega n j k : domain_of omega n -> (j < n)%nat -> (k < n)%nat ->
  sumn n (fun i => fpow (finv omega) (i * j) * fpow (fpow omega k) i) = if (j =? k)%nat then from_Z (Z.of_nat n) else 0.
Proof.
  intros D Hj Hk. pose proof (domain_neq0 _ _ D) as O. set (x := fpow (finv omega) j * fpow omega k).
  transitivity (sumn n (fun i => fpow x i)).
  { apply sumn_ext. intros i _. unfold x. rewrite fpow_mul_base. rewrite (Nat.mul_comm i j), fpow_mul. reflexivity. }
  assert (fpow (finv omega) j * fpow omega j = 1) as I by (now apply fpow_finv).
  destruct (Nat.eqb_spec j k) as [->|N].
  - rewrite from_Z_sum. apply sumn_ext. intros i _. unfold x. rewrite I. apply fpow_1_l.
  - assert (x <> 1) as X.
    { intros E. unfold x in E. assert (fpow omega k = fpow omega j) as E1.
      { transitivity (fpow omega j * (fpow (finv omega) j * fpow omega k)); [|rewrite E; ring].
        transitivity ((fpow (finv omega) j * fpow omega j) * fpow omega k); [rewrite I; ring|ring]. }
      assert (nth k (map (fpow omega) (seq 0 n)) 0 = nth j (map (fpow omega) (seq 0 n)) 0) as X by (now rewrite !nth_map_seq by lia).
      destruct D as [_ [_ ND]]. apply (proj1 (NoDup_nth (map (fpow omega) (seq 0 n)) 0) ND k j) in X; [lia| |]; rewrite map_length, seq_length; lia. }
    pose proof (geo_sum x n) as G. assert (fpow x n = 1) as P.
    { unfold x. rewrite fpow_mul_base, <- !fpow_mul, (Nat.mul_comm j), (Nat.mul_comm k), !fpow_mul. destruct D as [_ [E _]]. rewrite E, fpow_1_l.
      assert (fpow (finv omega) n = 1) as -> by (pose proof (fpow_finv omega n O) as Y; rewrite E in Y; rewrite <- Y; ring). rewrite fpow_1_l. ring. }
    rewrite P in G. replace (1 - 1) with (0 : F) in G by ring. apply fmul_integral in G. destruct G as [G|G]; auto. apply fsub_0_eq in G. contradiction.
Qed.
Lemma ifft_length omega n (v : list F) : length (ifft omega n v) = n.
Proof. unfold ifft. now rewrite map_length, seq_length. Qed.
Lemma ifft_value omega n (v : list F) k : domain_of omega n -> (k < n)%nat -> peval (ifft omega n v) (fpow omega k) = nth k v 0.
Proof.
  intros D Hk. rewrite (peval_sumn _ _ n) by (rewrite ifft_length; auto).
  transitivity (finv (from_Z (Z.of_nat n)) * sumn n (fun j => nth j v 0 * sumn n (fun i => fpow (finv omega) (i * j) * fpow (fpow omega k) i))).
  - rewrite <- sumn_mul_l. transitivity (sumn n (fun i => sumn n (fun j => finv (from_Z (Z.of_nat n)) * (nth j v 0 * (fpow (finv omega) (i * j) * fpow (fpow omega k) i))))).
    + apply sumn_ext. intros i Hi. unfold coef, ifft. rewrite nth_map_seq by auto. rewrite Nat.add_0_l.
      rewrite sumn_mul_l. rewrite (sumn_ext n (fun j => nth j v 0 * (fpow (finv omega) (i * j) * fpow (fpow omega k) i))
        (fun j => nth j v 0 * fpow (finv omega) (i * j) * fpow (fpow omega k) i)) by (intros; ring).
      rewrite sumn_mul_r. ring.
    + rewrite sumn_swap. apply sumn_ext. intros j Hj. rewrite !sumn_mul_l. reflexivity.
  - rewrite (sumn_single n k); auto.
    + rewrite domain_sum, Nat.eqb_refl by auto. pose proof (domain_size _ _ D). field. auto.
    + intros j Hj N. rewrite domain_sum by auto. destruct (Nat.eqb_spec j k); [contradiction|ring].
Qed.
Lemma coset_ifft_length g eta m (v : list F) : length (coset_ifft g eta m v) = m.
Proof. unfold coset_ifft. now rewrite map_length, seq_length. Qed.
Lemma coset_ifft_value g eta m (v : list F) k : domain_of eta m -> g <> 0 -> (k < m)%nat -> peval (coset_ifft g eta m v) (g * fpow eta k) = nth k v 0.
Proof.
  intros D G Hk. rewrite <- (ifft_value eta m v k D Hk). rewrite (peval_sumn (coset_ifft g eta m v) _ m) by (rewrite coset_ifft_length; auto).
  rewrite (peval_sumn (ifft eta m v) _ m) by (rewrite ifft_length; auto). apply sumn_ext. intros i Hi. unfold coset_ifft, coef at 1. rewrite nth_map_seq, Nat.add_0_l by auto.
  rewrite fpow_mul_base. unfold coef. pose proof (fpow_finv g i G) as I. 
  transitivity (nth i (ifft eta m v) 0 * (fpow (finv g) i * fpow g i) * fpow (fpow eta k) i); [ring|]. rewrite I. ring.
Qed.
(** polynomials that agree at enough points *)
Lemma poly_agree m (a b : list F) pts : (length a <= m)%nat -> (length b <= m)%nat -> NoDup pts -> (m <= length pts)%nat ->
  (forall x, In x pts -> peval a x = peval b x) -> forall x, peval a x = peval b x.
Proof.
  intros La Lb N Lp H. set (d := padd a (pscale (- (1)) b)).
  assert (forall x, peval d x = peval a x - peval b x) as V by (intros x; unfold d; rewrite peval_padd, peval_pscale; ring).
  assert (length d <= m)%nat as Ld by (unfold d; rewrite padd_length; unfold pscale; rewrite map_length; lia).
  destruct (nonzero_dec d) as [NZ|Z].
  - exfalso. destruct m as [|m].
    + destruct d; [|cbn in Ld; lia]. destruct NZ as [i Hi]. apply Hi. apply coef_over. cbn. lia.
    + assert (cnt m (fun x => peval d x = 0)) as C by (apply root_bound; auto; intros i Hi; apply coef_over; lia).
      specialize (C pts N). cbv beta in C. assert (length pts <= m)%nat; [|lia]. apply C. intros x Hx. rewrite V, H by auto. ring.
  - intros x. apply fsub_0_eq. rewrite <- V. now apply peval_over.
Qed.
(** division by the vanishing polynomial *)
Lemma divide_roots rs : forall l : list F, NoDup rs -> (forall x, In x rs -> peval l x = 0) ->
  exists q, (length q <= length l - length rs)%nat /\ forall x, peval l x = peval q x * lprod (map (fun r => x - r) rs).
Proof.
  induction rs as [|r rs IH]; intros l N H.
  - exists l. cbn. split; [lia|]. intros x. ring.
  - inversion N as [|? ? Nr N']; subst. assert (forall x, peval l x = (x - r) * peval (syn r l) x) as V.
    { intros x. rewrite (syn_value r l x), (H r) by now left. ring. }
    assert (forall r l, length (syn r l) = (length l - 0)%nat) as SL0 by (clear - fl; intros r l; induction l; cbn [syn length]; [reflexivity|]; rewrite IHl; lia).
    destruct l as [|a l].
    { exists []. split; [cbn; lia|]. intros x. cbn. ring. }
    (* the last coefficient of the quotient is zero *)
    assert (exists l1 : list F, length l1 = length l /\ forall x, peval l1 x = peval (syn r (a :: l)) x) as [l1 [L1 E1]].
    { exists (removelast (syn r (a :: l))). assert (forall r a (l : list F), exists m, syn r (a :: l) = m ++ [0] /\ length m = length l) as X.
      { clear - fl. intros r a l. revert a. induction l as [|b l IH]; intros a; [exists []; split; reflexivity|].
        destruct (IH b) as [m [E L]]. exists (peval (b :: l) r :: m). split; [|cbn; lia]. change (syn r (a :: b :: l)) with (peval (b :: l) r :: syn r (b :: l)). rewrite E. reflexivity. }
      destruct (X r a l) as [m [E L]]. rewrite E, removelast_app by discriminate. cbn [removelast]. rewrite app_nil_r. split; auto. intros x. rewrite peval_app. cbn. ring. }
    destruct (IH l1 N') as [q [Lq Vq]].
    { intros x Hx. rewrite E1. specialize (V x). rewrite (H x) in V by now right. symmetry in V. apply fmul_integral in V. destruct V as [V|V]; auto.
      apply fsub_0_eq in V. subst. contradiction. }
    exists q. split; [cbn [length]; lia|]. intros x. rewrite V, <- E1, Vq. cbn [map lprod]. ring.
Qed.
Lemma monic_roots (rs : list F) : forall n, length rs = n -> exists l, length l = S n /\ coef l n = 1 /\ forall y, peval l y = lprod (map (fun r => y - r) rs).
Proof.
  induction rs as [|r rs IH]; intros n Lr.
  - exists [1]. cbn in Lr. subst n. repeat split. intros y. cbn. ring.
  - destruct n as [|n]; [discriminate Lr|]. injection Lr as Lr. destruct (IH n Lr) as [l [L [C V]]]. exists (padd (0 :: l) (pscale (- r) l)).
    split; [|split].
    + rewrite padd_length. unfold pscale. rewrite map_length. cbn [length]. lia.
    + rewrite coef_padd, coef_pscale. rewrite (coef_over l (S n)) by lia. change (coef (0 :: l) (S n)) with (coef l n). rewrite C. ring.
    + intros y. rewrite peval_padd, peval_pscale. cbn [peval map lprod]. rewrite V. ring.
Qed.
Lemma domain_vanish omega n x : domain_of omega n -> lprod (map (fun r => x - r) (map (fpow omega) (seq 0 n))) = fpow x n - 1.
Proof.
  intros D. set (xn := (- (1) : F) :: repeat 0 (n - 1) ++ [1]). pose proof D as [Hn [E N]].
  assert (forall y, peval xn y = fpow y n - 1) as V.
  { intros y. unfold xn. cbn [peval]. rewrite peval_app, peval_repeat0, repeat_length. cbn [peval]. replace n with (S (n - 1)) at 2 by lia. cbn [fpow]. ring. }
  assert (length xn = S n) as L by (unfold xn; cbn [length]; rewrite app_length, repeat_length; cbn; lia).
  destruct (divide_roots (map (fpow omega) (seq 0 n)) xn N) as [q [Lq Vq]].
  { intros y Hy. apply in_map_iff in Hy. destruct Hy as [i [<- _]]. rewrite V, <- fpow_mul, Nat.mul_comm, fpow_mul, E, fpow_1_l. ring. }
  rewrite map_length, seq_length, L in Lq. replace (S n - n)%nat with 1%nat in Lq by lia.
  assert (exists c, forall y, peval q y = c) as [c Hc].
  { destruct q as [|c [|? ?]]; [exists 0; reflexivity|exists c; intros y; cbn; ring|cbn in Lq; lia]. }
  assert (c = 1) as ->; [|rewrite <- V, Vq, Hc; ring].
  (* compare the leading coefficients *)
  set (rs := map (fpow omega) (seq 0 n)) in *. assert (length rs = n) as Lr by (unfold rs; now rewrite map_length, seq_length).
  destruct (monic_roots rs n Lr) as [l [Ll [Cl Vl]]].
  set (d := padd xn (pscale (- c) l)). assert (forall y, peval d y = 0) as Vd.
  { intros y. unfold d. rewrite peval_padd, peval_pscale, Vl, Vq, Hc. ring. }
  assert (coef d n = 1 - c) as Cd.
  { unfold d. rewrite coef_padd, coef_pscale, Cl. unfold xn. replace n with (S (n - 1)) at 2 by lia. change (coef (- (1) :: repeat 0 (n - 1) ++ [1]) (S (n - 1))) with (coef (repeat 0 (n - 1) ++ [1]) (n - 1)).
    unfold coef. rewrite app_nth2, repeat_length, Nat.sub_diag by (rewrite repeat_length; lia). cbn. ring. }
  destruct (feq_dec c 1) as [|NC]; auto. exfalso.
  assert (length d = S n) as Ld by (unfold d; rewrite padd_length; unfold pscale; rewrite map_length; lia).
  (* the polynomial d - (1 - c) X^n + (1 - c) has the n roots of the domain and the degree below n, and vanishes *)
  assert (coef d 0 = (1 - c) * 0 + coef d 0) as _ by ring.
  set (d1 := firstn n d). assert (forall y, peval d y = peval d1 y + fpow y n * (1 - c)) as V1.
  { intros y. unfold d1. rewrite <- (firstn_skipn n d) at 1. rewrite peval_app, firstn_length, Ld, Nat.min_l by lia.
    assert (skipn n d = [1 - c]) as ->; [|cbn; ring]. apply (list_eq_nth _ _ _ 0); [rewrite skipn_length, Ld; change (length [1 - c]) with 1%nat; lia|].
    intros i Hi. rewrite skipn_length in Hi. assert (i = 0%nat) as -> by lia. change (coef (skipn n d) 0 = 1 - c). rewrite coef_skipn, Nat.add_0_r. exact Cd. }
  assert (forall y, peval d1 y = - (1 - c)) as V2.
  { intros y. transitivity (peval [- (1 - c)] y); [|cbn; ring]. revert y. apply (poly_agree n d1 [- (1 - c)] rs); auto; try (cbn; lia).
    - unfold d1. rewrite firstn_length. lia.
    - intros y Hy. specialize (V1 y). rewrite Vd in V1. assert (fpow y n = 1) as En.
      { apply in_map_iff in Hy. destruct Hy as [i [<- _]]. rewrite <- fpow_mul, Nat.mul_comm, fpow_mul, E, fpow_1_l. reflexivity. }
      rewrite En in V1. cbn [peval]. transitivity (peval d1 y + 1 * (1 - c) - (1 - c)); [ring|]. rewrite <- V1. ring. }
  specialize (V1 0). rewrite Vd, V2, fpow_0_l in V1 by auto. apply NC. transitivity (1 - (1 - c)); [ring|]. 
  transitivity (1 + (- (1 - c) + 0 * (1 - c))); [ring|]. rewrite <- V1. ring.
Qed.
(** A polynomial that vanishes on the domain is a multiple of X^n - 1. *)
Lemma divide_domain omega n (l : list F) : domain_of omega n -> (forall i, (i < n)%nat -> peval l (fpow omega i) = 0) ->
  exists q, (length q <= length l - n)%nat /\ forall x, peval l x = peval q x * (fpow x n - 1).
Proof.
  intros D H. destruct (divide_roots (map (fpow omega) (seq 0 n)) l) as [q [L V]].
  - apply D.
  - intros x Hx. apply in_map_iff in Hx. destruct Hx as [i [<- Hi]]. apply in_seq in Hi. apply H. lia.
  - rewrite map_length, seq_length in L. exists q. split; auto. intros x. rewrite V, (domain_vanish omega n x D). reflexivity.
Qed.
End PolyDom.
