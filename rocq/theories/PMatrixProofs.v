(** PMatrixProofs.v: Gaussian elimination in the model of matrix.rs. *)
From Verif Require Import Base Tools KZG SnarkProofs PMatrix PMatrixSpec.
Local Open Scope F_scope.

Section P.
Context {F : Type} {fo : FieldOps F} {fl : FieldLaws F}.
Add Field Fpm : F_th.
Implicit Types (r s v : list F) (z w : nat -> F) (P Q T : list (list F * list F)).

(** ** The product of a row and a vector *)
Definition dot (n : nat) (r : list F) (z : nat -> F) : F := sumn n (fun i => nth i r 0 * z i).
Lemma nth_zip_with (f : F -> F -> F) a : forall b i, (i < length a)%nat -> length a = length b ->
  nth i (zip_with f a b) 0 = f (nth i a 0) (nth i b 0).
Proof.
  induction a as [|x a IH]; intros [|y b] i L E; cbn [length] in *; try lia.
  destruct i; cbn [zip_with nth]; [reflexivity|]. apply IH; lia.
Qed.
Lemma zip_with_length (f : F -> F -> F) a : forall b, length a = length b -> length (zip_with f a b) = length a.
Proof. induction a as [|x a IH]; intros [|y b] E; cbn [length zip_with] in *; try lia. rewrite IH; lia. Qed.
Lemma fold_add (l : list F) : forall a, fold_left fadd l a = a + fsum l.
Proof.
  induction l as [|x l IH]; intros a; cbn [fold_left]; [cbn; ring|]. rewrite IH.
  replace (fsum (x :: l)) with (x + fsum l) by (cbn; ring). ring.
Qed.
Lemma inner_dot n a b : length a = n -> length b = n -> inner_product a b = dot n a (fun i => nth i b 0).
Proof.
  intros La Lb. unfold inner_product. rewrite fold_add, fsum_sumn, zip_with_length by lia. unfold dot. rewrite La.
  replace (0 + sumn n (fun i => nth i (zip_with fmul a b) 0)) with (sumn n (fun i => nth i (zip_with fmul a b) 0)) by ring.
  apply sumn_ext. intros i Hi. apply nth_zip_with; lia.
Qed.
Lemma scalar_length k v : length (scalar_vec_mul k v) = length v. Proof. apply map_length. Qed.
Lemma nth_scalar k v i : nth i (scalar_vec_mul k v) 0 = k * nth i v 0.
Proof.
  unfold scalar_vec_mul. replace (nth i (map (fun x => k * x) v) 0) with (nth i (map (fun x => k * x) v) (k * 0)) by (f_equal; ring).
  apply (map_nth (fun x => k * x)).
Qed.
Lemma dot_scalar n k r z : dot n (scalar_vec_mul k r) z = k * dot n r z.
Proof. unfold dot. rewrite <- sumn_mul_l. apply sumn_ext. intros i _. rewrite nth_scalar. ring. Qed.
Lemma dot_sub n r s z : length r = n -> length s = n -> dot n (vec_sub r s) z = dot n r z - dot n s z.
Proof.
  intros Lr Ls. unfold dot. rewrite <- sumn_sub. apply sumn_ext. intros i Hi. unfold vec_sub. rewrite nth_zip_with by lia. ring.
Qed.
Lemma vec_sub_length r s : length r = length s -> length (vec_sub r s) = length r.
Proof. apply zip_with_length. Qed.
Lemma get_ok {A} (l : list A) i d : (i < length l)%nat -> get_ l i = Ok (nth i l d).
Proof. intros H. unfold get_. rewrite (@nth_error_nth' A l i d H). reflexivity. Qed.

(** ** One column *)
Definition sized n P : Prop := forall p, In p P -> length (fst p) = n /\ length (snd p) = n.
Definition kernel n P (z w : nat -> F) : Prop := forall p, In p P -> dot n (fst p) z + dot n (snd p) w = 0.
Definition step (col : nat) (pv sp : list F) (inv : F) (p : list F * list F) : list F * list F :=
  let val := nth col (fst p) 0 in
  if is_zero val then p else (vec_sub (fst p) (scalar_vec_mul (val * inv) pv), vec_sub (snd p) (scalar_vec_mul (val * inv) sp)).

Lemma upd_app {A} (pre : list A) f y ys : upd (pre ++ y :: ys) (length pre) f = pre ++ f y :: ys.
Proof. induction pre as [|a pre IH]; cbn; [reflexivity|]. now rewrite IH. Qed.
Lemma nth_error_mid {A} (a : list A) x b : nth_error (a ++ x :: b) (length a) = Some x.
Proof. rewrite nth_error_app2, Nat.sub_diag by lia. reflexivity. Qed.

Lemma rows_after n col pi pv sp inv P : forall pre, (pi < length pre)%nat -> nth_error pre pi = Some sp ->
  sized n P -> (col < n)%nat ->
  eliminate_rows col pi pv inv (map fst P) (length pre) (pre ++ map snd P)
  = Ok (map fst (map (step col pv sp inv) P), pre ++ map snd (map (step col pv sp inv) P)).
Proof.
  induction P as [|[r s] P IH]; intros pre Hp Np Sz Hc; cbn [map eliminate_rows fst snd]; [reflexivity|].
  destruct (Nat.eqb_spec (length pre) pi) as [E|_]; [lia|].
  pose proof (Sz (r, s) (or_introl eq_refl)) as [Lr Ls]. cbn [fst snd] in Lr, Ls.
  rewrite (get_ok r col 0) by lia. cbn [obind].
  assert (sized n P) as Sz' by (intros p Hq; apply Sz; now right).
  assert (forall q, nth_error (pre ++ [q]) pi = Some sp) as Np' by (intros q; rewrite nth_error_app1 by lia; exact Np).
  assert (forall q, (pi < length (pre ++ [q]))%nat) as Hp' by (intros q; rewrite app_length; cbn; lia).
  assert (forall q : list F, length (pre ++ [q]) = S (length pre)) as LL by (intros q; rewrite app_length; cbn; lia).
  unfold step at 1 3. cbn [fst snd]. destruct (is_zero (nth col r 0)) eqn:Z; cbn [fst snd].
  - specialize (IH (pre ++ [s]) (Hp' s) (Np' s) Sz' Hc). rewrite LL, <- !app_assoc in IH. cbn [app] in IH. rewrite IH. reflexivity.
  - unfold get_ at 1. rewrite nth_error_app1, Np by lia. cbn [unwrap_opt obind].
    unfold get_. rewrite nth_error_mid. cbn [unwrap_opt obind]. rewrite upd_app.
    set (s1 := vec_sub s _).
    specialize (IH (pre ++ [s1]) (Hp' s1) (Np' s1) Sz' Hc). rewrite LL, <- !app_assoc in IH. cbn [app] in IH. rewrite IH. reflexivity.
Qed.
Lemma rows_before n col pi pv sp inv PB : forall PA pre, (length pre + length PA = pi)%nat ->
  sized n PA -> sized n PB -> (col < n)%nat ->
  eliminate_rows col pi pv inv (map fst (PA ++ (pv, sp) :: PB)) (length pre) (pre ++ map snd (PA ++ (pv, sp) :: PB))
  = Ok (map fst (map (step col pv sp inv) (PA ++ PB)),
        pre ++ map snd (map (step col pv sp inv) PA) ++ sp :: map snd (map (step col pv sp inv) PB)).
Proof.
  induction PA as [|[r s] PA IH]; intros pre Hp SA SB Hc; cbn [app map eliminate_rows fst snd].
  - cbn [length] in Hp. destruct (Nat.eqb_spec (length pre) pi) as [E|]; [|lia].
    pose proof (rows_after n col pi pv sp inv PB (pre ++ [sp])) as H.
    rewrite app_length in H. cbn [length] in H. replace (length pre + 1)%nat with (S (length pre)) in H by lia.
    rewrite <- !app_assoc in H. cbn [app] in H. apply H; try assumption; [lia|]. subst pi. rewrite Nat.add_0_r. apply nth_error_mid.
  - cbn [length] in Hp. destruct (Nat.eqb_spec (length pre) pi) as [E|_]; [lia|].
    pose proof (SA (r, s) (or_introl eq_refl)) as [Lr Ls]. cbn [fst snd] in Lr, Ls.
    rewrite (get_ok r col 0) by lia. cbn [obind].
    assert (sized n PA) as SA' by (intros p Hq; apply SA; now right).
    assert (forall q : list F, length (pre ++ [q]) = S (length pre)) as LL by (intros q; rewrite app_length; cbn; lia).
    unfold step at 1 3. cbn [fst snd]. destruct (is_zero (nth col r 0)) eqn:Z; cbn [fst snd].
    + specialize (IH (pre ++ [s])). rewrite LL in IH. specialize (IH ltac:(lia) SA' SB Hc).
      rewrite <- !app_assoc in IH. cbn [app] in IH. rewrite IH. reflexivity.
    + assert (nth_error (pre ++ s :: map snd (PA ++ (pv, sp) :: PB)) pi = Some sp) as NP.
      { rewrite map_app. cbn [map snd].
        replace (pre ++ s :: map snd PA ++ sp :: map snd PB) with ((pre ++ s :: map snd PA) ++ sp :: map snd PB) by (now rewrite <- app_assoc).
        replace pi with (length (pre ++ s :: map snd PA)) by (rewrite app_length; cbn; rewrite map_length; lia). apply nth_error_mid. }
      unfold get_ at 1. rewrite NP. cbn [unwrap_opt obind].
      unfold get_. rewrite nth_error_mid. cbn [unwrap_opt obind]. rewrite upd_app.
      set (s1 := vec_sub s _).
      specialize (IH (pre ++ [s1])). rewrite LL in IH. specialize (IH ltac:(lia) SA' SB Hc).
      rewrite <- !app_assoc in IH. cbn [app] in IH. rewrite IH. reflexivity.
Qed.

Lemma nth_firstn_lt {A} (l : list A) m j d : (j < m)%nat -> nth j (firstn m l) d = nth j l d.
Proof. revert m l. induction j as [|j IH]; intros [|m] [|a l] H; cbn; try lia; try reflexivity. apply IH. lia. Qed.
(** the entries to the left of the column are zero *)
Definition left_zero (col : nat) (r : list F) : Prop := forall j, (j < col)%nat -> nth j r 0 = 0.
Lemma firstn_zero col r : forallb is_zero (firstn col r) = true <-> left_zero (Nat.min col (length r)) r.
Proof.
  rewrite forallb_forall. unfold left_zero. split.
  - intros H j Hj. destruct (is_zero_spec (nth j r 0)) as [E|N]; [exact E|].
    assert (In (nth j r 0) (firstn col r)) as I.
    { rewrite <- (nth_firstn_lt r col j 0) by lia. apply nth_In. rewrite firstn_length. lia. }
    apply H in I. destruct (is_zero_spec (nth j r 0)); congruence.
  - intros H x I. apply (In_nth _ _ 0) in I. destruct I as (j & Hj & <-). rewrite firstn_length in Hj.
    rewrite nth_firstn_lt by lia. rewrite H by lia. destruct (is_zero_spec 0); congruence.
Qed.
Lemma find_spec n col rows : forall i, (forall r, In r rows -> length r = n /\ left_zero col r) -> (col < n)%nat ->
  (find_pivot col rows i = Ok None /\ forall r, In r rows -> nth col r 0 = 0)
  \/ (exists k, find_pivot col rows i = Ok (Some (i + k)%nat) /\ (k < length rows)%nat /\ nth col (nth k rows []) 0 <> 0).
Proof.
  induction rows as [|r rows IH]; intros i H Hc; cbn [find_pivot].
  - left. split; [reflexivity|]. intros r [].
  - destruct (H r (or_introl eq_refl)) as [Lr Zr]. rewrite (get_ok r col 0) by lia. cbn [obind].
    destruct (is_zero_spec (nth col r 0)) as [E|N]; cbn [negb andb].
    + destruct (IH (S i) (fun q I => H q (or_intror I)) Hc) as [[-> A]|(k & -> & B & C)].
      * left. split; [reflexivity|]. intros q [<-|I]; auto.
      * right. exists (S k). cbn [length nth]. split; [do 2 f_equal; lia|]. split; [lia|exact C].
    + right. exists 0%nat. cbn [nth length].
      replace (forallb is_zero (firstn col r)) with true by (symmetry; apply firstn_zero; intros j Hj; apply Zr; lia).
      split; [do 2 f_equal; lia|]. split; [lia|exact N].
Qed.

Lemma eliminate_spec n col P : sized n P -> (forall p, In p P -> left_zero col (fst p)) -> (col < n)%nat ->
  (eliminate (map fst P) col (map snd P) = Ok None /\ forall p, In p P -> nth col (fst p) 0 = 0)
  \/ (exists PA pv sp PB, P = PA ++ (pv, sp) :: PB /\ nth col pv 0 <> 0 /\
      let Q := map (step col pv sp (finv (nth col pv 0))) (PA ++ PB) in
      eliminate (map fst P) col (map snd P) = Ok (Some (pv :: map fst Q, sp :: map snd Q))).
Proof.
  intros Sz Hz Hc. unfold eliminate.
  assert (forall r, In r (map fst P) -> length r = n /\ left_zero col r) as HR.
  { intros r I. apply in_map_iff in I. destruct I as (p & <- & I). split; [apply Sz, I|apply Hz, I]. }
  destruct (find_spec n col (map fst P) 0 HR Hc) as [[-> A]|(k & -> & B & C)]; cbn [obind].
  - left. split; [reflexivity|]. intros p I. apply A. now apply in_map.
  - right. rewrite map_length in B. destruct (nth_split P ([], []) B) as (PA & PB & EP & LA).
    destruct (nth k P ([], [])) as [pv sp] eqn:EN.
    assert (nth k (map fst P) [] = pv) as Epv by (change (@nil F) with (fst (@nil F, @nil F)); rewrite map_nth, EN; reflexivity).
    rewrite Epv in C. exists PA, pv, sp, PB. split; [exact EP|]. split; [exact C|]. cbv zeta.
    cbn [Nat.add]. rewrite (get_ok _ k []) by (rewrite map_length; lia). rewrite Epv. cbn [obind].
    assert (length pv = n) as Lpv by (apply (Sz (pv, sp)); rewrite EP; apply in_elt).
    rewrite (get_ok pv col 0) by lia. cbn [obind]. rewrite inverse_Some by exact C.
    pose proof (rows_before n col k pv sp (finv (nth col pv 0)) PB PA []) as H. cbn [length app] in H.
    rewrite <- EP in H. rewrite H; clear H; [|lia| | |exact Hc].
    2,3: intros p I; apply Sz; rewrite EP; apply in_or_app; cbn; tauto.
    cbn [obind]. set (st := step col pv sp _).
    assert (length (map snd (map st PA)) = k) as LK by (now rewrite !map_length).
    unfold get_. rewrite <- LK at 1. rewrite nth_error_mid. cbn [unwrap_opt obind].
    rewrite firstn_app, LK, Nat.sub_diag, firstn_O, app_nil_r, firstn_all2 by lia.
    replace (skipn (S k) _) with (map snd (map st PB)).
    2:{ rewrite skipn_app, LK. replace (S k - k)%nat with 1%nat by (clear; lia). rewrite (@skipn_all2 _ (S k) (map snd (map st PA))) by (rewrite LK; clear; lia). reflexivity. }
    rewrite (map_app st), !map_app. reflexivity.
Qed.

(** what one column does to the kernel and to the entries *)
Lemma step_sized n col pv sp inv p : length pv = n -> length sp = n -> length (fst p) = n -> length (snd p) = n ->
  length (fst (step col pv sp inv p)) = n /\ length (snd (step col pv sp inv p)) = n.
Proof.
  intros A B C D. unfold step. destruct (is_zero _); [tauto|]. cbn [fst snd].
  rewrite !vec_sub_length by (rewrite scalar_length; congruence). tauto.
Qed.
Lemma step_dot n col pv sp inv p z w : length pv = n -> length sp = n -> length (fst p) = n -> length (snd p) = n ->
  dot n pv z + dot n sp w = 0 ->
  dot n (fst (step col pv sp inv p)) z + dot n (snd (step col pv sp inv p)) w = dot n (fst p) z + dot n (snd p) w.
Proof.
  intros A B C D E. unfold step. destruct (is_zero _); [reflexivity|]. cbn [fst snd].
  rewrite !dot_sub, !dot_scalar by (rewrite ?scalar_length; congruence).
  replace (dot n pv z) with (- dot n sp w); [ring|]. rewrite <- (Radd_0_l (F_R F_th) (- _)) at 1. rewrite <- E. ring.
Qed.
Lemma step_left n col pv sp p : length pv = n -> length (fst p) = n -> (col < n)%nat ->
  left_zero col pv -> left_zero col (fst p) -> nth col pv 0 <> 0 ->
  left_zero (S col) (fst (step col pv sp (finv (nth col pv 0)) p)).
Proof.
  intros A B Hc Zv Zp N j Hj. unfold step. destruct (is_zero_spec (nth col (fst p) 0)) as [E|NE].
  - destruct (Nat.eq_dec j col) as [->|]; [exact E|]. apply Zp. lia.
  - cbn [fst]. unfold vec_sub.
    rewrite (nth_zip_with fsub (fst p) _ j) by (rewrite ?scalar_length; rewrite ?A, ?B; (lia || reflexivity)). rewrite nth_scalar.
    destruct (Nat.eq_dec j col) as [->|]; [field; exact N|]. rewrite (Zv j), (Zp j) by lia. ring.
Qed.
(** ** All columns *)
Lemma dot_ext n r z z' : (forall j, (j < n)%nat -> z j = z' j) -> dot n r z = dot n r z'.
Proof. intros H. apply sumn_ext. intros i Hi. now rewrite H. Qed.
Lemma dot_zero n r : dot n r (fun _ => 0) = 0.
Proof. apply sumn_0. intros i _. ring. Qed.
Lemma dot_put n r z col c : (col < n)%nat ->
  dot n r (fun j => if (j =? col)%nat then c else z j) = dot n r z + nth col r 0 * (c - z col).
Proof.
  intros H. unfold dot.
  assert (sumn n (fun j => if (j =? col)%nat then nth col r 0 * (c - z col) else 0) = nth col r 0 * (c - z col)) as E.
  { rewrite (sumn_single n col); [now rewrite Nat.eqb_refl|exact H|].
    intros j _ N. destruct (Nat.eqb_spec j col) as [E|E]; [contradiction|reflexivity]. }
  rewrite <- E, <- sumn_add. apply sumn_ext. intros j _. destruct (Nat.eqb_spec j col) as [->|]; ring.
Qed.

Definition killed n col P : Prop :=
  exists z, (exists j, (col <= j < n)%nat /\ z j <> 0) /\ forall p, In p P -> dot n (fst p) z = 0.

Section Column.
Variables (n col : nat) (PA PB : list (list F * list F)) (pv sp : list F).
Let P := PA ++ (pv, sp) :: PB.
Let Q := map (step col pv sp (finv (nth col pv 0))) (PA ++ PB).
Hypothesis Sz : sized n P.
Hypothesis Hz : forall p, In p P -> left_zero col (fst p).
Hypothesis Hc : (col < n)%nat.
Hypothesis N : nth col pv 0 <> 0.
Lemma col_pv : length pv = n /\ length sp = n /\ left_zero col pv.
Proof.
  assert (In (pv, sp) P) as I by apply in_elt. pose proof (Sz _ I) as A. pose proof (Hz _ I) as B. cbn [fst snd] in *. tauto.
Qed.
Lemma col_in p : In p (PA ++ PB) -> In p P.
Proof. intros I. apply in_app_or in I. apply in_or_app. cbn. tauto. Qed.
Lemma col_sized : sized n Q.
Proof.
  intros q I. apply in_map_iff in I. destruct I as (p & <- & I). destruct col_pv as (A & B & _).
  destruct (Sz p (col_in p I)). now apply step_sized.
Qed.
Lemma col_left q : In q Q -> left_zero (S col) (fst q).
Proof.
  intros I. apply in_map_iff in I. destruct I as (p & <- & I). destruct col_pv as (A & B & C).
  apply (step_left n); try assumption; [apply Sz|apply Hz]; now apply col_in.
Qed.
Lemma col_kernel z w : kernel n P z w <-> dot n pv z + dot n sp w = 0 /\ kernel n Q z w.
Proof.
  destruct col_pv as (A & B & _). unfold kernel. split.
  - intros H. assert (dot n pv z + dot n sp w = 0) as E by (apply (H (pv, sp)); apply in_elt). split; [exact E|].
    intros q I. apply in_map_iff in I. destruct I as (p & <- & I). destruct (Sz p (col_in p I)).
    rewrite step_dot by assumption. apply H, col_in, I.
  - intros [E H] p I. apply in_app_or in I. cbn [In] in I.
    assert (p = (pv, sp) \/ In p (PA ++ PB)) as [->|I'] by (rewrite in_app_iff; destruct I as [I|[I|I]]; auto).
    + exact E.
    + destruct (Sz p (col_in p I')). rewrite <- (step_dot n col pv sp (finv (nth col pv 0))) by assumption. apply H. now apply in_map.
Qed.
Lemma col_killed : killed n (S col) Q -> killed n col P.
Proof.
  intros (z & (j & Hj & Nj) & K). set (c := z col - dot n pv z / nth col pv 0).
  set (z' := fun j => if (j =? col)%nat then c else z j).
  assert (dot n pv z' = 0) as E by (unfold z'; rewrite dot_put by exact Hc; unfold c; field; exact N).
  exists z'. split.
  - exists j. split; [lia|]. unfold z'. destruct (Nat.eqb_spec j col); [lia|exact Nj].
  - assert (kernel n P z' (fun _ => 0)) as H.
    { apply col_kernel. rewrite E, dot_zero. split; [ring|]. intros q I. rewrite dot_zero. unfold z'. rewrite dot_put by exact Hc.
      rewrite (K q I), (col_left q I col) by lia. ring. }
    intros p I. specialize (H p I). rewrite dot_zero in H. rewrite <- H. ring.
Qed.
End Column.

Definition triangular n col P T : Prop :=
  length T = length P /\ sized n T /\ (forall z w, kernel n P z w <-> kernel n T z w)
  /\ (forall k, (k < length T)%nat -> left_zero (col + k) (fst (nth k T ([], []))))
  /\ (forall k, (k < length T)%nat -> nth (col + k) (fst (nth k T ([], []))) 0 = 0 -> S (col + k) = n /\ killed n col P).
Lemma triangle_spec n : forall fuel P col, sized n P -> (forall p, In p P -> left_zero col (fst p)) ->
  (col + length P = n)%nat -> (1 <= length P <= S fuel)%nat ->
  (triangle fuel (map fst P) col (map snd P) = Ok None /\ killed n col P)
  \/ (exists T, triangle fuel (map fst P) col (map snd P) = Ok (Some (map fst T, map snd T)) /\ triangular n col P T).
Proof.
  induction fuel as [|fuel IH]; intros P col Sz Hz L LP.
  all: destruct (Nat.eq_dec (length P) 1) as [L1|L1].
  1,3: destruct P as [|[r s] [|? ?]]; cbn [length] in L1; try lia; right; exists [(r, s)];
    split; [reflexivity|]; unfold triangular; split; [reflexivity|]; split; [exact Sz|]; split; [tauto|];
    split; [intros k Hk; cbn [length] in Hk; replace k with 0%nat by lia; rewrite Nat.add_0_r; cbn [nth]; apply Hz; now left|];
    intros k Hk E; cbn [length] in Hk, L; replace k with 0%nat in * by lia; rewrite Nat.add_0_r in *; cbn [nth fst] in E;
    split; [lia|]; exists (fun j => if (j =? col)%nat then 1 else 0); split;
    [exists col; rewrite Nat.eqb_refl; split; [lia|exact f1_neq_0]|];
    intros p [<-|[]]; cbn [fst]; rewrite (dot_put n r (fun _ => 0) col 1), dot_zero by lia; rewrite E; ring.
  - lia.
  - cbn [triangle]. unfold num_rows. rewrite map_length. destruct (Nat.ltb_spec 1 (length P)) as [_|]; [|lia].
    assert (col < n)%nat as Hc by lia.
    destruct (eliminate_spec n col P Sz Hz Hc) as [[-> A]|(PA & pv & sp & PB & EP & N & H)]; cbn [obind].
    { left. split; [reflexivity|]. exists (fun j => if (j =? col)%nat then 1 else 0). split.
      - exists col. rewrite Nat.eqb_refl. split; [lia|exact f1_neq_0].
      - intros p I. rewrite (dot_put n (fst p) (fun _ => 0) col 1), dot_zero by lia. rewrite (A p I). ring. }
    cbv zeta in H. rewrite H. cbn [obind get_ nth_error unwrap_opt skipn]. clear H.
    subst P. set (Q := map (step col pv sp (finv (nth col pv 0))) (PA ++ PB)).
    assert (S (length Q) = length (PA ++ (pv, sp) :: PB)) as LQ by (unfold Q; rewrite map_length, !app_length; cbn; lia).
    rewrite map_length. replace (length Q =? _)%nat with true by (symmetry; apply Nat.eqb_eq; lia). cbn [assert_ obind].
    pose proof (col_sized n col PA PB pv sp Sz Hz) as SQ. fold Q in SQ.
    pose proof (col_left n col PA PB pv sp Sz Hz Hc N) as ZQ. fold Q in ZQ.
    destruct (IH Q (S col) SQ ZQ ltac:(lia) ltac:(lia)) as [[-> K]|(T & -> & LT & ST & KT & UT & NT)]; cbn [obind].
    + left. split; [reflexivity|]. now apply col_killed.
    + right. exists ((pv, sp) :: T). split; [reflexivity|]. split; [cbn [length]; lia|]. split; [|split; [|split]].
      * intros p [<-|I]; [|now apply ST]. destruct (col_pv n col PA PB pv sp Sz Hz) as (a & b & _). now split.
      * intros z w. rewrite (col_kernel n col PA PB pv sp Sz Hz). fold Q. rewrite KT. unfold kernel. cbn [In].
        split; [intros [A B] p [<-|I]; [exact A|now apply B]|intros A; split; [apply (A (pv, sp)); now left|intros p I; apply A; now right]].
      * intros [|k] Hk; cbn [length nth fst] in *.
        -- rewrite Nat.add_0_r. apply (col_pv n col PA PB pv sp Sz Hz).
        -- replace (col + S k)%nat with (S col + k)%nat by lia. apply UT. lia.
      * intros [|k] Hk E; cbn [length nth fst] in *.
        -- rewrite Nat.add_0_r in E. contradiction.
        -- replace (col + S k)%nat with (S col + k)%nat in * by lia. destruct (NT k ltac:(lia) E) as [A K].
           split; [exact A|]. now apply col_killed.
Qed.
(** ** To the identity *)
Notation row_ := (list F * list F)%type.
Lemma inverse_None (a : F) : a = 0 -> inverse a = None.
Proof. intros H. unfold inverse. destruct (is_zero_spec a); congruence. Qed.
Definition sized1 n (p : row_) : Prop := length (fst p) = n /\ length (snd p) = n.
Definition unit_row n k (p : row_) : Prop := forall i, (i < n)%nat -> nth i (fst p) 0 = delta i k.
Lemma subtract_spec n rest : forall j (row : row_), sized n rest -> sized1 n row -> (j + length rest <= n)%nat ->
  (forall i, (i < length rest)%nat -> unit_row n (n - 1 - (j + i)) (nth i rest ([], []))) ->
  exists row' : row_, subtract_rows n j rest row = Ok row' /\ sized1 n row' /\
    (forall z w, kernel n rest z w -> dot n (fst row') z + dot n (snd row') w = dot n (fst row) z + dot n (snd row) w) /\
    (forall i, (i < n)%nat -> (n - j - length rest <= i < n - j)%nat -> nth i (fst row') 0 = 0) /\
    (forall i, (i < n)%nat -> (i < n - j - length rest)%nat \/ (n - j <= i)%nat -> nth i (fst row') 0 = nth i (fst row) 0).
Proof.
  induction rest as [|[r s] rest IH]; intros j row Sz [L1 L2] Hj U; cbn [subtract_rows length] in *.
  - exists row. split; [reflexivity|]. split; [split; assumption|]. split; [reflexivity|]. split; [lia|reflexivity].
  - destruct (Sz (r, s) (or_introl eq_refl)) as [Lr Ls]. cbn [fst snd] in Lr, Ls.
    rewrite (get_ok (fst row) (n - j - 1) 0) by lia. cbn [obind]. set (val := nth (n - j - 1) (fst row) 0).
    set (row1 := (vec_sub (fst row) (scalar_vec_mul val r), vec_sub (snd row) (scalar_vec_mul val s))).
    assert (sized1 n row1) as S1.
    { split; cbn [row1 fst snd]; rewrite vec_sub_length by (rewrite scalar_length; congruence); assumption. }
    assert (forall i, (i < n)%nat -> nth i (fst row1) 0 = nth i (fst row) 0 - val * delta i (n - 1 - j)) as E1.
    { intros i Hi. unfold row1, vec_sub. cbn [fst].
      rewrite (nth_zip_with fsub (fst row) _ i) by (rewrite ?scalar_length; rewrite ?L1, ?Lr; (lia || reflexivity)).
      rewrite nth_scalar. specialize (U 0%nat ltac:(lia)). cbn [nth] in U. specialize (U i Hi). cbn [fst] in U.
      rewrite Nat.add_0_r in U. now rewrite U. }
    destruct (IH (S j) row1) as (row' & -> & S' & K & Z & O).
    + intros p I. apply Sz. now right.
    + exact S1.
    + lia.
    + intros i Hi. specialize (U (S i) ltac:(lia)). cbn [nth] in U. now replace (S j + i)%nat with (j + S i)%nat by lia.
    + exists row'. split; [reflexivity|]. split; [exact S'|]. split; [|split].
      * intros z w Kr. rewrite K by (intros p I; apply Kr; now right).
        unfold row1. cbn [fst snd]. rewrite !dot_sub, !dot_scalar by (rewrite ?scalar_length; congruence).
        assert (dot n r z + dot n s w = 0) as E by (apply (Kr (r, s)); now left).
        transitivity (dot n (fst row) z + dot n (snd row) w - val * (dot n r z + dot n s w)); [ring|]. rewrite E. ring.
      * intros i Hi Hr. destruct (Nat.eq_dec i (n - j - 1)) as [->|NE]; [|apply Z; lia].
        rewrite O by lia. rewrite E1 by lia. unfold delta. destruct (Nat.eq_dec (n - j - 1) (n - 1 - j)); [|lia]. fold val. ring.
      * intros i Hi Hr. rewrite O by lia. rewrite E1 by lia. unfold delta. destruct (Nat.eq_dec i (n - 1 - j)); [lia|ring].
Qed.
Lemma reduce_spec n T : length T = n -> sized n T ->
  (forall k, (k < n)%nat -> left_zero k (fst (nth k T ([], [])))) ->
  forall k results, (k <= n)%nat -> length results = (n - k)%nat -> sized n results ->
  (forall j, (j < length results)%nat -> unit_row n (n - 1 - j) (nth j results ([], []))) ->
  (reduce_rows n (map fst T) (map snd T) k results = Ok None /\ exists k', (k' < k)%nat /\ nth k' (fst (nth k' T ([], []))) 0 = 0)
  \/ (exists res, reduce_rows n (map fst T) (map snd T) k results = Ok (Some res) /\ length res = n /\ sized n res
      /\ (forall j, (j < n)%nat -> unit_row n (n - 1 - j) (nth j res ([], [])))
      /\ forall z w, kernel n (firstn k T ++ results) z w <-> kernel n res z w).
Proof.
  intros LT ST UT. induction k as [|k IH]; intros results Hk LR SR UR; cbn [reduce_rows].
  - right. exists results. cbn [firstn app]. rewrite Nat.sub_0_r in LR. split; [reflexivity|]. split; [exact LR|].
    split; [exact SR|]. split; [|tauto]. intros j Hj. apply UR. lia.
  - assert (In (nth k T ([], [])) T) as I by (apply nth_In; lia). destruct (ST _ I) as [La Lb]. pose proof (UT k ltac:(lia)) as UK.
    set (p := nth k T ([], [])) in *.
    assert (nth k (map fst T) [] = fst p) as Ef by (unfold p; change (@nil F) with (fst (@nil F, @nil F)) at 1; apply map_nth).
    assert (nth k (map snd T) [] = snd p) as Es by (unfold p; change (@nil F) with (snd (@nil F, @nil F)) at 1; apply map_nth).
    rewrite (get_ok (map fst T) k []), (get_ok (map snd T) k []) by (rewrite map_length; lia).
    rewrite Ef, Es. cbn [obind]. rewrite (get_ok (fst p) k 0) by lia. cbn [obind].
    destruct (feq_dec (nth k (fst p) 0) 0) as [E|NZ].
    { rewrite (inverse_None _ E). left. split; [reflexivity|]. exists k. split; [lia|exact E]. }
    rewrite (inverse_Some _ NZ). set (inv := finv (nth k (fst p) 0)).
    assert (sized1 n (scalar_vec_mul inv (fst p), scalar_vec_mul inv (snd p))) as S1.
    { split; cbn [fst snd]; rewrite scalar_length; assumption. }
    destruct (subtract_spec n results 0 (scalar_vec_mul inv (fst p), scalar_vec_mul inv (snd p)) SR S1) as (row' & -> & S' & K & Z & O);
      [lia|exact UR|]. cbn [obind].
    assert (forall A (x : A) l, length (l ++ [x]) = S (length l)) as LA by (intros A x l; rewrite app_length; cbn; lia).
    destruct (IH (results ++ [row'])) as [[-> (k' & A & B)]|(res & -> & A & B & C & D)].
    + lia.
    + rewrite LA. lia.
    + intros q Iq. apply in_app_or in Iq. destruct Iq as [Iq|[<-|[]]]; [now apply SR|exact S'].
    + intros j Hj. rewrite LA in Hj. destruct (Nat.eq_dec j (length results)) as [->|NE].
      * rewrite nth_middle. intros i Hi. rewrite LR. unfold delta.
        destruct (Nat.eq_dec i (n - 1 - (n - S k))) as [E|NE].
        -- rewrite O by lia. cbn [fst]. rewrite nth_scalar. replace i with k by lia. unfold inv. field. exact NZ.
        -- destruct (Nat.lt_ge_cases i k) as [L|L].
           ++ rewrite O by lia. cbn [fst]. rewrite nth_scalar, (UK i L). ring.
           ++ apply Z; lia.
      * rewrite app_nth1 by lia. apply UR. lia.
    + left. split; [reflexivity|]. exists k'. split; [lia|exact B].
    + right. exists res. split; [reflexivity|]. split; [exact A|]. split; [exact B|]. split; [exact C|].
      intros z w. rewrite <- D.
      assert (firstn (S k) T = firstn k T ++ [p]) as EF.
      { unfold p. clear - LT Hk. revert k T n LT Hk. induction k as [|k IH]; intros [|t T] n LT Hk; cbn [length] in LT; try lia; [reflexivity|].
        cbn [firstn nth app]. f_equal. apply (IH T (n - 1)%nat); lia. }
      rewrite EF. unfold kernel.
      assert (forall z w, dot n (scalar_vec_mul inv (fst p)) z + dot n (scalar_vec_mul inv (snd p)) w = inv * (dot n (fst p) z + dot n (snd p) w)) as ES
        by (intros; rewrite !dot_scalar; ring).
      assert (forall A : Type, forall a b c : list A, forall x, In x ((a ++ b) ++ c) <-> In x a \/ In x b \/ In x c) as IN
        by (intros; rewrite !in_app_iff; tauto).
      split; intros H q Iq.
      * apply in_app_or in Iq. rewrite in_app_iff in Iq.
        assert (kernel n results z w) as KR by (intros t It; apply H, IN; auto).
        destruct Iq as [Iq|[Iq|[<-|[]]]]; [apply H, IN; auto|now apply KR|].
        rewrite K by exact KR. cbn [fst snd]. rewrite ES, (H p) by (apply IN; cbn; auto). ring.
      * assert (kernel n results z w) as KR by (intros t It; apply H; rewrite !in_app_iff; auto).
        apply IN in Iq. destruct Iq as [Iq|[[<-|[]]|Iq]]; [apply H, in_or_app; auto| |now apply KR].
        specialize (H row' ltac:(rewrite !in_app_iff; cbn; auto)). rewrite K in H by exact KR. cbn [fst snd] in H. rewrite ES in H.
        apply fmul_integral in H. destruct H as [H|H]; [|exact H]. exfalso. exact (finv_neq_0 _ NZ H).
Qed.

(** ** The inverse *)
Lemma identity_shape n : shape n n (identity n : matrix F).
Proof.
  split; [unfold identity; now rewrite map_length, seq_length|]. intros row I. unfold identity in I. apply in_map_iff in I.
  destruct I as (i & <- & _). now rewrite map_length, seq_length.
Qed.
Lemma identity_at n i j : (i < n)%nat -> (j < n)%nat -> at_ (identity n) i j = delta i j.
Proof.
  intros Hi Hj. unfold at_, identity. rewrite (nth_map_seq _ (fun i => map (fun j => kronecker_delta i j) (seq 0 n)) 0 n i []) by exact Hi.
  rewrite (nth_map_seq _ (fun j => kronecker_delta (0 + i) j) 0 n j 0) by exact Hj. cbn [Nat.add]. unfold kronecker_delta, delta.
  destruct (Nat.eqb_spec i j), (Nat.eq_dec i j); congruence.
Qed.
Lemma shape_columns nr c (m : matrix F) : shape nr c m -> (0 < nr)%nat -> num_columns m = Ok c.
Proof.
  intros [L C] Hr. destruct m as [|row m]; [cbn in L; lia|]. unfold num_columns. pose proof (C row (or_introl eq_refl)) as L0.
  replace (forallb _ (row :: m)) with true; [cbn [assert_ obind]; now rewrite L0|].
  symmetry. apply forallb_forall. intros q I. rewrite L0, (C q I). apply Nat.eqb_refl.
Qed.
Lemma shape_square n (m : matrix F) : shape n n m -> is_square m = Ok true.
Proof.
  intros H. unfold is_square. destruct n as [|n].
  - destruct H as [L _]. destruct m; [reflexivity|discriminate].
  - rewrite (shape_columns _ _ m H) by lia. cbn [obind]. unfold num_rows. rewrite (proj1 H). now rewrite Nat.eqb_refl.
Qed.
Lemma map_combine {A B} : forall (l : list A) (l' : list B), length l = length l' -> map fst (combine l l') = l /\ map snd (combine l l') = l'.
Proof. induction l as [|x l IH]; intros [|y l'] H; cbn in *; try lia; [tauto|]. destruct (IH l' ltac:(lia)) as [-> ->]. tauto. Qed.
Lemma dot_delta n k z : (k < n)%nat -> sumn n (fun i => delta k i * z i) = z k.
Proof.
  intros H. rewrite (sumn_single n k); [unfold delta; destruct (Nat.eq_dec k k); [ring|congruence]|exact H|].
  intros i _ N. unfold delta. destruct (Nat.eq_dec k i); [congruence|ring].
Qed.

Theorem invert_spec n (m : matrix F) : shape n n m -> (0 < n)%nat ->
  (invert m = Ok None /\ singular n m)
  \/ (exists i, invert m = Ok (Some i) /\ shape n n i /\
      (forall z k, (k < n)%nat -> dot n (nth k i []) (fun r : nat => dot n (nth r m []) z) = z k) /\
      (forall w k, (k < n)%nat -> dot n (nth k m []) (fun r : nat => dot n (nth r i []) w) = w k)).
Proof.
  intros Hm Hn.
  cut (exists o, invert m = o /\ ((o = Ok None /\ singular n m) \/ (exists i, o = Ok (Some i) /\ shape n n i /\
      (forall z k, (k < n)%nat -> dot n (nth k i []) (fun r : nat => dot n (nth r m []) z) = z k) /\
      (forall w k, (k < n)%nat -> dot n (nth k m []) (fun r : nat => dot n (nth r i []) w) = w k)))).
  { intros (o & -> & H). exact H. }
  unfold invert. rewrite (shape_columns _ _ m Hm Hn). cbn [obind]. unfold upper_triangular.
  rewrite (shape_square _ _ Hm). cbn [assert_ obind]. unfold num_rows at 1.
  pose proof (identity_shape n) as [LI CI]. destruct Hm as [LM CM].
  set (P := combine m (identity n)). destruct (map_combine m (identity n)) as [EF ES]; [congruence|]. fold P in EF, ES.
  assert (length P = n) as LP by (unfold P; rewrite combine_length; lia).
  assert (sized n P) as SP.
  { intros [r s] I. split; cbn [fst snd]; [apply CM, (in_combine_l _ _ _ _ I)|apply CI, (in_combine_r _ _ _ _ I)]. }
  assert (forall k, (k < n)%nat -> nth k P ([], []) = (nth k m [], nth k (identity n) [])) as NP
    by (intros k _; unfold P; rewrite combine_nth by congruence; reflexivity).
  assert (forall z w, kernel n P z w <-> forall k, (k < n)%nat -> dot n (nth k m []) z + w k = 0) as KP.
  { intros z w. assert (forall k, (k < n)%nat -> dot n (nth k (identity n) []) w = w k) as DI.
    { intros k Hk. rewrite <- (dot_delta n k w Hk). apply sumn_ext. intros i Hi. f_equal. apply (identity_at n k i Hk Hi). }
    unfold kernel. split.
    - intros H k Hk. specialize (H (nth k P ([], [])) ltac:(apply nth_In; lia)). rewrite NP in H by exact Hk. cbn [fst snd] in H.
      now rewrite DI in H.
    - intros H p I. apply (In_nth _ _ ([], [])) in I. destruct I as (k & Hk & <-). rewrite LP in Hk. rewrite NP by exact Hk.
      cbn [fst snd]. rewrite DI by exact Hk. now apply H. }
  assert (killed n 0 P -> singular n m) as KS.
  { intros (z & (j & Hj & Nj) & K). exists z. split; [exists j; split; [lia|exact Nj]|]. intros i Hi.
    specialize (K (nth i P ([], [])) ltac:(apply nth_In; lia)). rewrite NP in K by exact Hi. exact K. }
  replace (triangle (length m) m 0 (identity n)) with (triangle (length (map fst P)) (map fst P) 0 (map snd P)) by (now rewrite EF, ES).
  destruct (triangle_spec n (length (map fst P)) P 0 SP) as [[E K]|(T & E & LT & ST & KT & UT & NT)].
  - intros p _ j Hj. lia.
  - lia.
  - rewrite map_length. lia.
  - rewrite E. cbn [obind]. eexists; split; [reflexivity|]. left. split; [reflexivity|]. now apply KS.
  - rewrite E. cbn [obind]. unfold reduce_to_identity, num_rows. rewrite map_length.
    assert (length T = n) as LT' by congruence. rewrite LT'.
    destruct (reduce_spec n T LT' ST) with (k := n) (results := @nil row_) as [[-> (k' & A & B)]|(res & -> & LR & SR & UR & KR)].
    + intros k Hk. apply UT. lia.
    + lia.
    + cbn. lia.
    + intros p [].
    + cbn. lia.
    + cbn [obind]. eexists; split; [reflexivity|]. left. split; [reflexivity|]. apply KS. apply (NT k'); [lia|exact B].
    + cbn [obind]. assert (firstn n T ++ [] = T) as FT by (rewrite app_nil_r; apply firstn_all2; lia). rewrite FT in KR. clear FT.
      eexists; split; [reflexivity|]. right. exists (map snd (rev res)). split; [reflexivity|].
      assert (forall k, (k < n)%nat -> nth k (map snd (rev res)) [] = snd (nth (n - 1 - k) res ([], []))) as NR.
      { intros k Hk. change (@nil F) with (snd (@nil F, @nil F)) at 1. rewrite map_nth, rev_nth by lia. do 2 f_equal. lia. }
      set (i := map snd (rev res)) in *.
      assert (forall z w, kernel n P z w <-> forall k, (k < n)%nat -> z k + dot n (nth k i []) w = 0) as KF.
      { intros z w. rewrite KT, KR. unfold kernel.
        assert (forall j, (j < n)%nat -> dot n (fst (nth j res ([], []))) z = z (n - 1 - j)%nat) as DU.
        { intros j Hj. rewrite <- (dot_delta n (n - 1 - j) z) by lia. apply sumn_ext. intros t Ht. rewrite (UR j Hj t Ht).
          unfold delta. destruct (Nat.eq_dec t (n - 1 - j)), (Nat.eq_dec (n - 1 - j) t); try lia; reflexivity. }
        split.
        - intros H k Hk. rewrite NR by exact Hk. specialize (H (nth (n - 1 - k) res ([], [])) ltac:(apply nth_In; lia)).
          rewrite DU in H by lia. now replace (n - 1 - (n - 1 - k))%nat with k in H by lia.
        - intros H p I. apply (In_nth _ _ ([], [])) in I. destruct I as (j & Hj & <-). rewrite LR in Hj. rewrite DU by exact Hj.
          specialize (H (n - 1 - j)%nat ltac:(lia)). rewrite NR in H by lia. now replace (n - 1 - (n - 1 - j))%nat with j in H by lia. }
      split; [|split].
      * split; [unfold i; now rewrite map_length, rev_length|]. intros row I. unfold i in I. apply in_map_iff in I.
        destruct I as (p & <- & I). apply in_rev in I. now apply SR.
      * intros z k Hk. pose (w := fun r : nat => - dot n (nth r m []) z).
        assert (kernel n P z w) as H by (apply KP; intros j _; unfold w; ring).
        pose proof (proj1 (KF z w) H k Hk) as E1.
        assert (dot n (nth k i []) w = - dot n (nth k i []) (fun r : nat => dot n (nth r m []) z)) as E2.
        { unfold dot at 1 2. rewrite <- sumn_opp. apply sumn_ext. intros t _. unfold w. ring. }
        rewrite E2 in E1. symmetry. apply fsub_0_eq. rewrite <- E1. ring.
      * intros w k Hk. pose (z := fun r : nat => - dot n (nth r i []) w).
        assert (kernel n P z w) as H by (apply KF; intros j _; unfold z; ring).
        pose proof (proj1 (KP z w) H k Hk) as E1.
        assert (dot n (nth k m []) z = - dot n (nth k m []) (fun r : nat => dot n (nth r i []) w)) as E2.
        { unfold dot at 1 2. rewrite <- sumn_opp. apply sumn_ext. intros t _. unfold z. ring. }
        rewrite E2 in E1. symmetry. apply fsub_0_eq. rewrite <- E1. ring.
Qed.
End P.
