(** Sound.v: counting bad challenges. *)
From Verif Require Import Base Spec Tools ToolsProofs ToolsProofs2 PermProofs SnarkPerm Laurent SoundSpec.
Local Open Scope F_scope.

Section Sound.
Context {F : Type} {fo : FieldOps F} {fl : FieldLaws F}.
Add Field Fso : F_th.

(** at most k elements satisfy B *)
Definition cnt (k : nat) (B : F -> Prop) : Prop :=
  forall l : list F, NoDup l -> (forall x, In x l -> B x) -> (length l <= k)%nat.

Lemma most_intro k (B P : F -> Prop) : cnt k B -> (forall x, B x \/ ~ B x) -> (forall x, ~ B x -> P x) -> most k P.
Proof.
  intros C D H l Hl Hb. apply C; auto. intros x Hx. destruct (D x) as [|N]; auto. exfalso. now apply (Hb x Hx), H.
Qed.
Lemma most_weaken k k' (P Q : F -> Prop) : (k <= k')%nat -> (forall x, P x -> Q x) -> most k P -> most k' Q.
Proof. intros Hk H M l Hl Hb. transitivity k; auto. apply M; auto. intros x Hx Px. now apply (Hb x Hx), H. Qed.

Lemma cnt_weaken k k' (B B' : F -> Prop) : (k <= k')%nat -> (forall x, B' x -> B x) -> cnt k B -> cnt k' B'.
Proof. intros Hk H C l Hl Hb. transitivity k; auto. Qed.
Lemma cnt_false (B : F -> Prop) : (forall x, ~ B x) -> cnt 0 B.
Proof. intros H [|x l] _ Hb; [auto|]. exfalso. apply (H x). apply Hb. now left. Qed.
Lemma cnt_eq a : cnt 1 (fun x => x = a).
Proof.
  intros l Hl Hb. destruct l as [|x [|y l]]; cbn [length]; try lia. exfalso. inversion Hl as [|? ? N _]; subst.
  apply N. left. rewrite (Hb x), (Hb y); cbn; auto.
Qed.
Lemma cnt_and k (B : F -> Prop) (P : Prop) : P \/ ~ P -> (P -> cnt k B) -> cnt k (fun x => P /\ B x).
Proof.
  intros [HP|HP] H.
  - apply (cnt_weaken k k B); auto. tauto.
  - apply (cnt_weaken 0 k (fun x => P /\ B x)); auto; [lia|]. apply cnt_false. tauto.
Qed.
Lemma cnt_or k1 k2 (B1 B2 : F -> Prop) : (forall x, B1 x \/ ~ B1 x) -> cnt k1 B1 -> cnt k2 B2 -> cnt (k1 + k2) (fun x => B1 x \/ B2 x).
Proof.
  intros D C1 C2 l Hl Hb.
  assert (exists l1 l2, NoDup l1 /\ NoDup l2 /\ length l = (length l1 + length l2)%nat /\
    (forall x, In x l1 -> In x l /\ B1 x) /\ (forall x, In x l2 -> In x l /\ B2 x)) as [l1 [l2 [N1 [N2 [L [H1 H2]]]]]].
  { clear C1 C2. induction l as [|x l IH]; [exists [], []; split; [constructor|]; split; [constructor|]; split; [reflexivity|]; split; intros x []|].
    inversion Hl as [|? ? Hn Hl']; subst.
    destruct IH as [l1 [l2 [N1 [N2 [L [H1 H2]]]]]]; auto; [intros; apply Hb; now right|].
    destruct (D x) as [Bx|Bx].
    - exists (x :: l1), l2. split; [constructor; auto; intros Hx; now apply H1 in Hx|]. split; auto.
      split; [cbn [length]; lia|]. split; intros y Hy.
      + destruct Hy as [<-|Hy]; [split; auto; now left|]. apply H1 in Hy. split; [now right|tauto].
      + apply H2 in Hy. split; [now right|tauto].
    - exists l1, (x :: l2). split; auto. split; [constructor; auto; intros Hx; now apply H2 in Hx|].
      split; [cbn [length]; lia|]. split; intros y Hy.
      + apply H1 in Hy. split; [now right|tauto].
      + destruct Hy as [<-|Hy]; [|apply H2 in Hy; split; [now right|tauto]]. split; [now left|].
        destruct (Hb x) as [|]; auto; [now left|contradiction]. }
  rewrite L. apply Nat.add_le_mono; [apply C1|apply C2]; auto; intros x Hx; [now apply H1|now apply H2].
Qed.
Lemma dec_ex (n : nat) (P : nat -> Prop) : (forall i, (i < n)%nat -> P i \/ ~ P i) ->
  (exists i, (i < n)%nat /\ P i) \/ ~ (exists i, (i < n)%nat /\ P i).
Proof.
  induction n as [|n IH]; intros D; [right; intros [i [Hi _]]; lia|].
  destruct (D n) as [Pn|Pn]; [lia|left; exists n; auto|].
  destruct IH as [[i [Hi Pi]]|N]; [auto|left; exists i; auto|].
  right. intros [i [Hi Pi]]. apply N. exists i. split; auto.
  destruct (Nat.eq_dec i n) as [->|]; [contradiction|lia].
Qed.
Lemma cnt_ex n k (B : nat -> F -> Prop) : (forall i x, (i < n)%nat -> B i x \/ ~ B i x) ->
  (forall i, (i < n)%nat -> cnt k (B i)) -> cnt (n * k) (fun x => exists i, (i < n)%nat /\ B i x).
Proof.
  induction n as [|n IH]; intros D C.
  - apply cnt_false. intros x [i [Hi _]]. lia.
  - replace (S n * k)%nat with (n * k + k)%nat by lia.
    apply (cnt_weaken (n * k + k) _ (fun x => (exists i, (i < n)%nat /\ B i x) \/ B n x)); auto.
    + intros x [i [Hi Bi]]. destruct (Nat.eq_dec i n) as [->|]; [now right|]. left. exists i. split; auto. lia.
    + apply cnt_or; auto. intros x. apply dec_ex. auto.
Qed.

(** *** Roots of polynomials *)
(** quotient by X - r *)
Fixpoint syn (r : F) (l : list F) : list F := match l with [] => [] | _ :: l' => peval l' r :: syn r l' end.
Lemma syn_value r l x : peval l x = peval l r + (x - r) * peval (syn r l) x.
Proof.
  induction l as [|a l IH]; cbn [syn peval]; [ring|]. rewrite IH at 1. ring.
Qed.
Lemma peval_over l x : (forall i, coef l i = 0) -> peval l x = 0.
Proof.
  induction l as [|a l IH]; intros H; cbn [peval]; [ring|]. rewrite IH by (intros i; apply (H (S i))).
  rewrite (H 0%nat : a = 0). ring.
Qed.
Lemma coef_syn_over r l n : (forall i, (n < i)%nat -> coef l i = 0) -> forall i, (n <= i)%nat -> coef (syn r l) i = 0.
Proof.
  revert n; induction l as [|a l IH]; intros n H i Hi; cbn [syn]; [now rewrite coef_over by (cbn; lia)|].
  destruct i as [|i]; cbn [coef nth].
  - apply (peval_over l). intros i. apply (H (S i)). lia.
  - apply (IH (n - 1)%nat); [|lia]. intros j Hj. apply (H (S j)). lia.
Qed.
Lemma coef_syn r l i : coef l i = coef ((0 : F) :: syn r l) i - r * coef (syn r l) i + (if (i =? 0)%nat then peval l r else 0).
Proof.
  revert i; induction l as [|a l IH]; intros i.
  - cbn [syn peval]. destruct i as [|[|i]]; cbn; ring.
  - destruct i as [|i].
    + cbn [syn peval coef nth Nat.eqb]. ring.
    + change (coef (a :: l) (S i)) with (coef l i). rewrite IH. cbn [syn Nat.eqb].
      change (coef (0 :: peval l r :: syn r l) (S i)) with (coef (peval l r :: syn r l) i).
      change (coef (peval l r :: syn r l) (S i)) with (coef (syn r l) i).
      destruct i as [|i]; cbn [Nat.eqb]; [|change (coef (peval l r :: syn r l) (S i)) with (coef (syn r l) i);
        change (coef (0 :: syn r l) (S i)) with (coef (syn r l) i); ring].
      cbn [coef nth]. ring.
Qed.
Lemma root_bound n : forall l, (forall i, (n < i)%nat -> coef l i = 0) -> (exists i, coef l i <> 0) ->
  cnt n (fun x => peval l x = 0).
Proof.
  induction n as [|n IH]; intros l Hd [i Hi] rs Hr Hz.
  - destruct rs as [|r rs]; [auto|]. exfalso. apply Hi. rewrite (coef_syn r l i), (Hz r) by now left.
    assert (forall j, coef (syn r l) j = 0) as E by (intros j; apply (coef_syn_over r l 0); [auto|lia]).
    rewrite E. destruct i as [|i]; cbn [Nat.eqb]; [cbn; ring|].
    change (coef (0 :: syn r l) (S i)) with (coef (syn r l) i). rewrite E. ring.
  - destruct rs as [|r rs]; [cbn; lia|]. cbn [length]. apply le_n_S. inversion Hr as [|? ? Hn Hr']; subst.
    apply (IH (syn r l)); auto.
    + intros j Hj. apply (coef_syn_over r l (S n)); auto.
    + destruct (dec_ex (S i) (fun j => coef (syn r l) j <> 0)) as [[j [_ Hj]]|N].
      { intros j _. destruct (feq_dec (coef (syn r l) j) 0); auto. }
      { now exists j. }
      exfalso. assert (forall j, (j <= i)%nat -> coef (syn r l) j = 0) as E.
      { intros j Hj. destruct (feq_dec (coef (syn r l) j) 0); auto. exfalso. apply N. exists j. split; auto. lia. }
      apply Hi. rewrite (coef_syn r l i), (Hz r), E by (auto; now left).
      destruct i as [|i]; cbn [Nat.eqb]; [cbn; ring|].
      change (coef (0 :: syn r l) (S i)) with (coef (syn r l) i). rewrite E by lia. ring.
    + intros x Hx. pose proof (syn_value r l x) as V. pose proof (Hz r (or_introl eq_refl)) as V1.
      pose proof (Hz x (or_intror Hx)) as V2. cbn beta in V1, V2. rewrite V1, V2 in V.
      assert ((x - r) * peval (syn r l) x = 0) as V0 by (transitivity (0 + (x - r) * peval (syn r l) x); [ring|now symmetry]).
      apply fmul_integral in V0. destruct V0 as [V0|]; auto. exfalso. apply Hn.
      apply fsub_0_eq in V0. now subst.
Qed.
Lemma nonzero_dec (l : list F) : (exists i, coef l i <> 0) \/ (forall i, coef l i = 0).
Proof.
  destruct (dec_ex (length l) (fun j => coef l j <> 0)) as [[j [_ Hj]]|N].
  - intros j _. destruct (feq_dec (coef l j) 0); auto.
  - left. now exists j.
  - right. intros i. destruct (Nat.le_gt_cases (length l) i) as [H|H]; [now apply coef_over|].
    destruct (feq_dec (coef l i) 0); auto. exfalso. apply N. now exists i.
Qed.
(** at most n arguments are roots of a polynomial of degree at most n that is not zero *)
Lemma cnt_roots n l : (length l <= n + 1)%nat -> cnt n (fun x => (exists i, coef l i <> 0) /\ peval l x = 0).
Proof.
  intros Hl. apply cnt_and; [destruct (nonzero_dec l) as [|H]; auto; right; intros [i Hi]; auto|].
  intros Hn. apply root_bound; auto. intros i Hi. apply coef_over. lia.
Qed.
Lemma dec_roots l x : ((exists i, coef l i <> 0) /\ peval l x = 0) \/ ~ ((exists i, coef l i <> 0) /\ peval l x = 0).
Proof.
  destruct (nonzero_dec l) as [H|H].
  - destruct (feq_dec (peval l x) 0); tauto.
  - right. intros [[i Hi] _]. auto.
Qed.
(** sums *)
Lemma cnt_sumn n (f : nat -> F) : cnt (n - 1) (fun x => (exists i, (i < n)%nat /\ f i <> 0) /\ sumn n (fun i => fpow x i * f i) = 0).
Proof.
  apply (cnt_weaken (n - 1) _ (fun x => (exists i, coef (map f (seq 0 n)) i <> 0) /\ peval (map f (seq 0 n)) x = 0)); auto.
  2:{ apply cnt_roots. rewrite map_length, seq_length. lia. }
  intros x [[i [Hi Hf]] E]. split.
  - exists i. unfold coef. now rewrite nth_map_seq.
  - rewrite (peval_sumn _ _ n) by (rewrite map_length, seq_length; auto). refine (eq_trans _ E). apply sumn_ext.
    intros j Hj. unfold coef. rewrite nth_map_seq by auto. cbn [Nat.add]. ring.
Qed.
Lemma dec_sumn n (f : nat -> F) (P : Prop) : P \/ ~ P -> ((exists i, (i < n)%nat /\ f i <> 0) /\ P) \/ ~ ((exists i, (i < n)%nat /\ f i <> 0) /\ P).
Proof.
  intros D. destruct (dec_ex n (fun i => f i <> 0)) as [H|H].
  - intros i _. destruct (feq_dec (f i) 0); auto.
  - destruct D; tauto.
  - tauto.
Qed.
Lemma not_ex_0 n (f : nat -> F) : ~ (exists i, (i < n)%nat /\ f i <> 0) -> forall i, (i < n)%nat -> f i = 0.
Proof. intros N i Hi. destruct (feq_dec (f i) 0); auto. exfalso. apply N. now exists i. Qed.

(** a linear equation *)
Lemma cnt_linear a b : cnt 1 (fun x => (a <> 0 \/ b <> 0) /\ a + x * b = 0).
Proof.
  destruct (feq_dec b 0) as [->|Hb].
  - apply (cnt_weaken 0 1 (fun x => (a <> 0 \/ (0 : F) <> 0) /\ a + x * 0 = 0)); auto.
    apply cnt_false. intros x [[H|H] E]; apply H; auto. rewrite <- E. ring.
  - apply (cnt_weaken 1 1 (fun x => x = - a / b)); auto; [|apply cnt_eq].
    intros x [_ E]. transitivity (((a + x * b) - a) / b); [field; auto|]. rewrite E. field. auto.
Qed.
Lemma dec_linear a b x : ((a <> 0 \/ b <> 0) /\ a + x * b = 0) \/ ~ ((a <> 0 \/ b <> 0) /\ a + x * b = 0).
Proof. destruct (feq_dec a 0), (feq_dec b 0), (feq_dec (a + x * b) 0); tauto. Qed.

(** Laurent polynomials *)
Lemma lsum_0_shift M f z : z <> 0 -> (0 <= M)%Z -> lsum M f z = 0 ->
  sumn (Z.to_nat (2 * M + 1)) (fun i => fpow z i * f (1 - M + Z.of_nat i)%Z) = 0.
Proof.
  intros Hz HM E. transitivity (fpowZ z M * lsum M f z); [|rewrite E; ring].
  unfold lsum, sumZ. rewrite <- sumn_mul_l. apply sumn_ext. intros i _.
  replace (1 - M + Z.of_nat i - 1)%Z with (- M + Z.of_nat i)%Z by lia.
  rewrite fpowZ_add by auto. rewrite fpowZ_opp, fpowZ_nat by auto.
  assert (fpowZ z M <> 0) by now apply fpowZ_neq_0. field. auto.
Qed.
Definition lzero (M : Z) (f : Z -> F) : Prop := forall K, (1 - M <= K <= M + 1)%Z -> f K = 0.
Lemma lzero_dec M f : lzero M f \/ ~ lzero M f.
Proof.
  destruct (dec_ex (Z.to_nat (2 * M + 1)) (fun i => f (1 - M + Z.of_nat i)%Z <> 0)) as [[i [Hi Hf]]|N].
  - intros i _. destruct (feq_dec (f (1 - M + Z.of_nat i)%Z) 0); auto.
  - right. intros L. apply Hf. apply L. lia.
  - left. intros K HK. destruct (feq_dec (f K) 0); auto. exfalso. apply N. exists (Z.to_nat (K - (1 - M))).
    split; [lia|]. replace (1 - M + Z.of_nat (Z.to_nat (K - (1 - M))))%Z with K by lia. auto.
Qed.
Lemma cnt_laurent M f : (0 <= M)%Z -> cnt (Z.to_nat (2 * M)) (fun z => z <> 0 /\ ~ lzero M f /\ lsum M f z = 0).
Proof.
  intros HM. set (n := Z.to_nat (2 * M + 1)).
  apply (cnt_weaken (n - 1) _ (fun z => (exists i, (i < n)%nat /\ f (1 - M + Z.of_nat i)%Z <> 0) /\
    sumn n (fun i => fpow z i * f (1 - M + Z.of_nat i)%Z) = 0)); [lia| |apply cnt_sumn].
  intros z [Hz [N E]]. split; [|now apply lsum_0_shift].
  destruct (dec_ex n (fun i => f (1 - M + Z.of_nat i)%Z <> 0)) as [H|H]; auto.
  - intros i _. destruct (feq_dec (f (1 - M + Z.of_nat i)%Z) 0); auto.
  - exfalso. apply N. intros K HK. destruct (feq_dec (f K) 0); auto. exfalso. apply H. exists (Z.to_nat (K - (1 - M))).
    split; [lia|]. replace (1 - M + Z.of_nat (Z.to_nat (K - (1 - M))))%Z with K by lia. auto.
Qed.
(** the constant term *)
Lemma cnt_CT N (f : Z -> F) : cnt (N - 1) (fun om => (exists i, (i < N)%nat /\ f (1 + Z.of_nat i)%Z <> 0) /\ sumZ 1 N (fun i => fpowZ om (i - 1) * f i) = 0).
Proof.
  apply (cnt_weaken (N - 1) _ (fun om => (exists i, (i < N)%nat /\ f (1 + Z.of_nat i)%Z <> 0) /\
    sumn N (fun i => fpow om i * f (1 + Z.of_nat i)%Z) = 0)); auto; [|apply (cnt_sumn N (fun i => f (1 + Z.of_nat i)%Z))].
  intros om [H E]. split; auto. refine (eq_trans _ E). unfold sumZ. apply sumn_ext. intros i _.
  replace (1 + Z.of_nat i - 1)%Z with (Z.of_nat i) by lia. now rewrite fpowZ_nat.
Qed.

(** *** Products *)
(** coefficients of the product of all X + a *)
Fixpoint ppoly (l : list F) : list F := match l with [] => [1] | a :: l' => padd (pscale a (ppoly l')) (0 :: ppoly l') end.
Lemma ppoly_length l : length (ppoly l) = (length l + 1)%nat.
Proof. induction l as [|a l IH]; cbn [ppoly length]; auto. rewrite padd_length, pscale_length. cbn [length]. lia. Qed.
Lemma ppoly_value l x : peval (ppoly l) x = fprod (map (fun a => a + x) l).
Proof. induction l as [|a l IH]; cbn [ppoly map fprod peval]; [ring|]. rewrite peval_padd, peval_pscale. cbn [peval]. rewrite IH. ring. Qed.
Lemma fprod_neq_0 l : (forall a, In a l -> a <> 0) -> fprod l <> 0.
Proof.
  induction l as [|a l IH]; intros H; cbn [fprod]; [apply f1_neq_0|]. apply fmul_neq_0; [apply H; now left|].
  apply IH. intros; apply H; now right.
Qed.
Lemma fprod_0 l : In 0 l -> fprod l = 0.
Proof. induction l as [|a l IH]; intros [].  - subst. cbn [fprod]. ring. - cbn [fprod]. rewrite IH by auto. ring. Qed.
Lemma in_dec_F (a : F) l : In a l \/ ~ In a l.
Proof. destruct (in_dec feq_dec a l); auto. Qed.
(** if a factor of the first product is missing in the second, few x make the products equal *)
Lemma cnt_products (A B : list F) n : (length A <= n)%nat -> (length B <= n)%nat ->
  cnt n (fun x => (exists i, (i < length A)%nat /\ ~ In (coef A i) B) /\ fprod (map (fun a => a + x) A) = fprod (map (fun b => b + x) B)).
Proof.
  intros LA LB. set (l := padd (ppoly A) (pscale (- (1)) (ppoly B))).
  apply (cnt_weaken n n (fun x => (exists i, coef l i <> 0) /\ peval l x = 0)); auto.
  2:{ apply cnt_roots. unfold l. rewrite padd_length, pscale_length, !ppoly_length. lia. }
  assert (forall x, peval l x = fprod (map (fun a => a + x) A) - fprod (map (fun b => b + x) B)) as V.
  { intros x. unfold l. rewrite peval_padd, peval_pscale, !ppoly_value. ring. }
  intros x [[i [Hi N]] E]. split; [|rewrite V, E; ring].
  destruct (nonzero_dec l) as [H|H]; auto. exfalso.
  assert (peval l (- coef A i) = 0) as E0 by now apply peval_over. rewrite V in E0.
  rewrite (fprod_0 (map _ A)) in E0.
  - assert (fprod (map (fun b => b + - coef A i) B) = 0) as E1 by (transitivity (- (0 - fprod (map (fun b => b + - coef A i) B))); [ring|rewrite E0; ring]).
    revert E1. apply fprod_neq_0. intros b Hb Hz. apply in_map_iff in Hb. destruct Hb as [b' [<- Hb]]. apply N.
    assert (b' = coef A i) as <-; auto. apply fsub_0_eq. rewrite <- Hz. ring.
  - apply in_map_iff. exists (coef A i). split; [ring|]. apply nth_In. auto.
Qed.
Lemma dec_products (A B : list F) x :
  ((exists i, (i < length A)%nat /\ ~ In (coef A i) B) /\ fprod (map (fun a => a + x) A) = fprod (map (fun b => b + x) B)) \/
  ~ ((exists i, (i < length A)%nat /\ ~ In (coef A i) B) /\ fprod (map (fun a => a + x) A) = fprod (map (fun b => b + x) B)).
Proof.
  destruct (dec_ex (length A) (fun i => ~ In (coef A i) B)) as [H|H].
  - intros i _. destruct (in_dec_F (coef A i) B); auto.
  - destruct (feq_dec (fprod (map (fun a => a + x) A)) (fprod (map (fun b => b + x) B))); tauto.
  - tauto.
Qed.
(** the running product certifies that the two products agree *)
Lemma grand_product_sound (num den r : Z -> F) (N : nat) : r 0%Z = 0 -> (1 <= N)%nat ->
  (forall i, (1 <= i <= Z.of_nat N)%Z -> (delta i 1 + r (i - 1)%Z) * num i = r i * den i) -> r (Z.of_nat N) = 1 ->
  prodn N (fun k => num (1 + Z.of_nat k)%Z) = prodn N (fun k => den (1 + Z.of_nat k)%Z).
Proof.
  intros R0 HN Hr HE.
  assert (forall k, (1 <= k <= N)%nat -> r (Z.of_nat k) * prodn k (fun k => den (1 + Z.of_nat k)%Z) = prodn k (fun k => num (1 + Z.of_nat k)%Z)) as P.
  { intros k. induction k as [|k IH]; intros Hk; [lia|]. cbn [prodn].
    specialize (Hr (1 + Z.of_nat k)%Z ltac:(lia)). replace (1 + Z.of_nat k - 1)%Z with (Z.of_nat k) in Hr by lia.
    replace (Z.of_nat (S k)) with (1 + Z.of_nat k)%Z by lia.
    destruct k as [|k].
    - cbn [prodn]. change (Z.of_nat 0) with 0%Z in *. rewrite R0 in Hr. unfold delta in Hr. cbn [Z.add Z.eqb Pos.eqb] in *.
      transitivity (r 1%Z * den 1%Z); [ring|]. rewrite <- Hr. ring.
    - rewrite <- IH by lia. assert (delta (1 + Z.of_nat (S k)) 1 = (0 : F)) as Ed.
      { unfold delta. destruct (Z.eqb_spec (1 + Z.of_nat (S k)) 1); [lia|auto]. }
      rewrite Ed in Hr. transitivity ((r (1 + Z.of_nat (S k))%Z * den (1 + Z.of_nat (S k))%Z) * prodn (S k) (fun k => den (1 + Z.of_nat k)%Z)); [ring|].
      rewrite <- Hr. ring. }
  rewrite <- P by lia. rewrite HE. ring.
Qed.
End Sound.
