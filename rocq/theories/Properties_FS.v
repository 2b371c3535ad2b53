(** Properties_FS.v: the challenges depend on every earlier message (C50). *)
From Verif Require Import Base Spec Tools CS KZG Snark PovPE Fib Pov Transcript TranscriptProofs TranscriptSpec Properties_Tools Properties_Circuit Properties_Snark.
Local Open Scope F_scope.

Section S.
Context {F G1 G2 GT : Type} {fo : FieldOps F} {fl : FieldLaws F} {po : PairingOps F G1 G2 GT}.
Add Field Ffs : F_th.
Lemma one_two : (1 + 1 : F) <> 1.
Proof. intros E. apply (F_1_neq_0 F_th). transitivity ((1 + 1 : F) - 1); [ring|]. rewrite E. ring. Qed.

Variable ser_F : F -> list nat.
Variable ser_G : G1 -> list nat.
Notation binds := (binds ser_F ser_G).
Notation separate := (separate ser_F ser_G).

Lemma binds_of {A B} ch (ok : A -> Prop) (view : A -> B) (T : A -> list (item F G1)) : good_ser ser_F -> good_ser ser_G ->
  (forall H a, ch H a = H (T a)) -> (forall a, ok a -> Forall item_ok (T a)) ->
  (forall a a', map kind_of (T a) = map kind_of (T a')) ->
  (forall a a', T a = T a' -> view a = view a') -> binds ch ok view.
Proof.
  intros [[kF [PF LF]] JF] [[kG [PG LG]] JG] HT HO HK HV. exists (fun a => to_bytes ser_F ser_G (T a)). split.
  - intros hb a. unfold by_hash. now rewrite HT.
  - intros a a' Oa Oa' E. apply HV.
    apply (to_bytes_inj ser_F ser_G kF kG LF LG JF JG (T a) (T a') []); auto. rewrite app_nil_r. apply HK.
Qed.
Lemma separate_of {A} ch ch' (ok : A -> Prop) (T T' : A -> list (item F G1)) ks : good_ser ser_F -> good_ser ser_G ->
  (forall H a, ch H a = H (T a)) -> (forall a, ok a -> Forall item_ok (T a)) ->
  (forall H a, ch' H a = H (T' a)) -> (forall a, ok a -> Forall item_ok (T' a)) ->
  (forall a a', map kind_of (T' a') = map kind_of (T a) ++ ks) ->
  (forall a a', T a <> T' a') -> separate ok ch ch'.
Proof.
  intros [[kF [PF LF]] JF] [[kG [PG LG]] JG] HT HO HT' HO' HK HV.
  exists (fun a => to_bytes ser_F ser_G (T a)), (fun a => to_bytes ser_F ser_G (T' a)). split; [|split].
  - intros hb a. unfold by_hash. now rewrite HT.
  - intros hb a. unfold by_hash. now rewrite HT'.
  - intros a a' Oa Oa' E. apply (HV a a').
    apply (to_bytes_inj ser_F ser_G kF kG LF LG JF JG (T a) (T' a') ks); auto.
Qed.

(** an instance that exists in memory: positions are u64, lists have fewer than 2^64 elements *)
Definition small_instance (x : POVInstance (F:=F)) : Prop :=
  u64_ok (length (fst x)) /\ Forall u64_ok (fst x) /\ u64_ok (length (snd x)).

Lemma pair_eq {A B} (p q : A * B) : fst p = fst q -> snd p = snd q -> p = q.
Proof. destruct p, q; cbn. intros -> ->. auto. Qed.
Ltac msg_eq := repeat apply pair_eq; cbn [fst snd]; assumption.
Ltac bt := eapply binds_of; [assumption|assumption|intros; reflexivity
  |let a := fresh in let Ha := fresh in intros a Ha; repeat constructor; cbn [item_ok]; try (destruct Ha as [? [? ?]]; tauto)
  |intros; reflexivity
  |let a := fresh in let b := fresh in let E := fresh in intros a b E; injection E; intros; msg_eq].
Ltac st := eapply separate_of; [assumption|assumption|intros; reflexivity
  |let a := fresh in let Ha := fresh in intros a Ha; repeat constructor; cbn [item_ok]; try (destruct Ha as [? [? ?]]; tauto)
  |intros; reflexivity
  |let a := fresh in let Ha := fresh in intros a Ha; repeat constructor; cbn [item_ok]; try (destruct Ha as [? [? ?]]; tauto)
  |intros; cbn [map kind_of app]; reflexivity
  |let a := fresh in let b := fresh in let E := fresh in intros a b E;
   solve [discriminate E | injection E; intros; apply one_two; congruence]].

(** ** voproof_pov *)
(** everything that is sent in a run of the argument *)
Record pv_msgs := mkPVMsgs { pm_vk : pv_vk G1 G2; pm_x : POVInstance (F:=F); pm_w : G1; pm_r : G1; pm_t : G1; pm_h1 : G1; pm_h2 : G1; pm_g : G1; pm_omega : F; pm_y : F; pm_y2 : F; pm_z : F }.
Definition pv_ok (a : pv_msgs) : Prop := small_instance (pm_x a).
Definition pv_fs_zeta H (a : pv_msgs) : F := pv_v_ch_zeta H (pm_vk a) (pm_x a) (pm_w a).
Definition pv_fs_zeta_1 H (a : pv_msgs) : F := pv_v_ch_zeta_1 H (pm_vk a) (pm_x a) (pm_w a).
Definition pv_fs_alpha H (a : pv_msgs) : F := pv_v_ch_alpha H (pm_vk a) (pm_x a) (pm_w a) (pm_r a).
Definition pv_fs_omega H (a : pv_msgs) : F := pv_v_ch_omega H (pm_vk a) (pm_x a) (pm_w a) (pm_r a) (pm_t a).
Definition pv_fs_z H (a : pv_msgs) : F := pv_v_ch_z H (pm_vk a) (pm_x a) (pm_w a) (pm_r a) (pm_t a) (pm_h1 a) (pm_h2 a).
Definition pv_fs_rand_xi H (a : pv_msgs) : F := pv_v_ch_rand_xi H (pm_vk a) (pm_x a) (pm_w a) (pm_r a) (pm_t a) (pm_h1 a) (pm_h2 a) (pm_g a) (pm_omega a) (pm_y a) (pm_y2 a) (pm_z a).
Definition pv_fs_rand_xi_2 H (a : pv_msgs) : F := pv_v_ch_rand_xi_2 H (pm_vk a) (pm_x a) (pm_w a) (pm_r a) (pm_t a) (pm_h1 a) (pm_h2 a) (pm_g a) (pm_omega a) (pm_y a) (pm_y2 a) (pm_z a).
(** the commitments in the verifier key *)
Definition pv_key (a : pv_msgs) := (pv_vk_cm_sigma_vec (pm_vk a), pv_vk_cm_d_vec (pm_vk a)).

Theorem c50_pv_binds : good_ser ser_F -> good_ser ser_G ->
  binds pv_fs_zeta pv_ok (fun a => (pv_key a, pm_x a, pm_w a)) /\
  binds pv_fs_zeta_1 pv_ok (fun a => (pv_key a, pm_x a, pm_w a)) /\
  binds pv_fs_alpha pv_ok (fun a => (pv_key a, pm_x a, pm_w a, pm_r a)) /\
  binds pv_fs_omega pv_ok (fun a => (pv_key a, pm_x a, pm_w a, pm_r a, pm_t a)) /\
  binds pv_fs_z pv_ok (fun a => (pv_key a, pm_x a, pm_w a, pm_r a, pm_t a, pm_h1 a, pm_h2 a)) /\
  binds pv_fs_rand_xi pv_ok (fun a => (pv_key a, pm_x a, pm_w a, pm_r a, pm_t a, pm_h1 a, pm_h2 a, pm_g a, pm_y a, pm_y2 a, pm_z a, pm_omega a / pm_z a)) /\
  binds pv_fs_rand_xi_2 pv_ok (fun a => (pv_key a, pm_x a, pm_w a, pm_r a, pm_t a, pm_h1 a, pm_h2 a, pm_g a, pm_y a, pm_y2 a, pm_z a, pm_omega a / pm_z a)).
Proof. intros GF GG. repeat match goal with |- _ /\ _ => split end; bt. Qed.
(** No two challenges of a run hash the same bytes. *)
Theorem c50_pv_separate : good_ser ser_F -> good_ser ser_G ->
  ForallOrdPairs (separate pv_ok) [pv_fs_zeta; pv_fs_zeta_1; pv_fs_alpha; pv_fs_omega; pv_fs_z; pv_fs_rand_xi; pv_fs_rand_xi_2].
Proof.
  intros GF GG. repeat (apply FOP_nil || apply FOP_cons || apply Forall_nil || apply Forall_cons); st.
Qed.

(** ** voproof_pov_prover_efficient *)
(** everything that is sent in a run of the argument *)
Record pe_msgs := mkPEMsgs { em_vk : pe_vk G1 G2; em_x : POVInstance (F:=F); em_u : G1; em_v : G1; em_r : G1; em_t : G1; em_h1 : G1; em_h2 : G1; em_g : G1; em_omega : F; em_y : F; em_y2 : F; em_z : F }.
Definition pe_ok (a : pe_msgs) : Prop := small_instance (em_x a).
Definition pe_fs_zeta H (a : pe_msgs) : F := pe_v_ch_zeta H (em_vk a) (em_x a) (em_u a) (em_v a).
Definition pe_fs_zeta_1 H (a : pe_msgs) : F := pe_v_ch_zeta_1 H (em_vk a) (em_x a) (em_u a) (em_v a).
Definition pe_fs_alpha H (a : pe_msgs) : F := pe_v_ch_alpha H (em_vk a) (em_x a) (em_u a) (em_v a) (em_r a).
Definition pe_fs_omega H (a : pe_msgs) : F := pe_v_ch_omega H (em_vk a) (em_x a) (em_u a) (em_v a) (em_r a) (em_t a).
Definition pe_fs_z H (a : pe_msgs) : F := pe_v_ch_z H (em_vk a) (em_x a) (em_u a) (em_v a) (em_r a) (em_t a) (em_h1 a) (em_h2 a).
Definition pe_fs_rand_xi H (a : pe_msgs) : F := pe_v_ch_rand_xi H (em_vk a) (em_x a) (em_u a) (em_v a) (em_r a) (em_t a) (em_h1 a) (em_h2 a) (em_g a) (em_omega a) (em_y a) (em_y2 a) (em_z a).
Definition pe_fs_rand_xi_2 H (a : pe_msgs) : F := pe_v_ch_rand_xi_2 H (em_vk a) (em_x a) (em_u a) (em_v a) (em_r a) (em_t a) (em_h1 a) (em_h2 a) (em_g a) (em_omega a) (em_y a) (em_y2 a) (em_z a).
(** the commitments in the verifier key *)
Definition pe_key (a : pe_msgs) := (pe_vk_cm_sigma_vec (em_vk a), pe_vk_cm_d_vec (em_vk a)).

Theorem c50_pe_binds : good_ser ser_F -> good_ser ser_G ->
  binds pe_fs_zeta pe_ok (fun a => (pe_key a, em_x a, em_u a, em_v a)) /\
  binds pe_fs_zeta_1 pe_ok (fun a => (pe_key a, em_x a, em_u a, em_v a)) /\
  binds pe_fs_alpha pe_ok (fun a => (pe_key a, em_x a, em_u a, em_v a, em_r a)) /\
  binds pe_fs_omega pe_ok (fun a => (pe_key a, em_x a, em_u a, em_v a, em_r a, em_t a)) /\
  binds pe_fs_z pe_ok (fun a => (pe_key a, em_x a, em_u a, em_v a, em_r a, em_t a, em_h1 a, em_h2 a)) /\
  binds pe_fs_rand_xi pe_ok (fun a => (pe_key a, em_x a, em_u a, em_v a, em_r a, em_t a, em_h1 a, em_h2 a, em_g a, em_y a, em_y2 a, em_z a, em_omega a / em_z a)) /\
  binds pe_fs_rand_xi_2 pe_ok (fun a => (pe_key a, em_x a, em_u a, em_v a, em_r a, em_t a, em_h1 a, em_h2 a, em_g a, em_y a, em_y2 a, em_z a, em_omega a / em_z a)).
Proof. intros GF GG. repeat match goal with |- _ /\ _ => split end; bt. Qed.
(** No two challenges of a run hash the same bytes. *)
Theorem c50_pe_separate : good_ser ser_F -> good_ser ser_G ->
  ForallOrdPairs (separate pe_ok) [pe_fs_zeta; pe_fs_zeta_1; pe_fs_alpha; pe_fs_omega; pe_fs_z; pe_fs_rand_xi; pe_fs_rand_xi_2].
Proof.
  intros GF GG. repeat (apply FOP_nil || apply FOP_cons || apply Forall_nil || apply Forall_cons); st.
Qed.

(** ** fibonacci: the messages, but not the instance (see C31) *)
(** everything that is sent in a run of the argument *)
Record fb_msgs := mkFBMsgs { fm_vk : fb_vk G1 G2; fm_w : G1; fm_r : G1; fm_t : G1; fm_h1 : G1; fm_h2 : G1; fm_g : G1; fm_omega : F; fm_y : F; fm_y1 : F; fm_y2 : F; fm_z : F }.
Definition fb_ok (a : fb_msgs) : Prop := True.
Definition fb_fs_alpha H (a : fb_msgs) : F := fb_v_ch_alpha H (fm_vk a) (fm_w a) (fm_r a).
Definition fb_fs_omega H (a : fb_msgs) : F := fb_v_ch_omega H (fm_vk a) (fm_w a) (fm_r a) (fm_t a).
Definition fb_fs_z H (a : fb_msgs) : F := fb_v_ch_z H (fm_vk a) (fm_w a) (fm_r a) (fm_t a) (fm_h1 a) (fm_h2 a).
Definition fb_fs_rand_xi H (a : fb_msgs) : F := fb_v_ch_rand_xi H (fm_vk a) (fm_w a) (fm_r a) (fm_t a) (fm_h1 a) (fm_h2 a) (fm_g a) (fm_omega a) (fm_y a) (fm_y1 a) (fm_y2 a) (fm_z a).
Definition fb_fs_rand_xi_2 H (a : fb_msgs) : F := fb_v_ch_rand_xi_2 H (fm_vk a) (fm_w a) (fm_r a) (fm_t a) (fm_h1 a) (fm_h2 a) (fm_g a) (fm_omega a) (fm_y a) (fm_y1 a) (fm_y2 a) (fm_z a).
(** the commitments in the verifier key *)
Definition fb_key (a : fb_msgs) := fb_vk_cm_t_vec (fm_vk a).

Theorem c50_fb_binds : good_ser ser_F -> good_ser ser_G ->
  binds fb_fs_alpha fb_ok (fun a => (fb_key a, fm_w a, fm_r a)) /\
  binds fb_fs_omega fb_ok (fun a => (fb_key a, fm_w a, fm_r a, fm_t a)) /\
  binds fb_fs_z fb_ok (fun a => (fb_key a, fm_w a, fm_r a, fm_t a, fm_h1 a, fm_h2 a)) /\
  binds fb_fs_rand_xi fb_ok (fun a => (fb_key a, fm_w a, fm_r a, fm_t a, fm_h1 a, fm_h2 a, fm_g a, fm_y a, fm_y1 a, fm_y2 a, fm_z a, fm_omega a / fm_z a)) /\
  binds fb_fs_rand_xi_2 fb_ok (fun a => (fb_key a, fm_w a, fm_r a, fm_t a, fm_h1 a, fm_h2 a, fm_g a, fm_y a, fm_y1 a, fm_y2 a, fm_z a, fm_omega a / fm_z a)).
Proof. intros GF GG. repeat match goal with |- _ /\ _ => split end; bt. Qed.
(** No two challenges of a run hash the same bytes. *)
Theorem c50_fb_separate : good_ser ser_F -> good_ser ser_G ->
  ForallOrdPairs (separate fb_ok) [fb_fs_alpha; fb_fs_omega; fb_fs_z; fb_fs_rand_xi; fb_fs_rand_xi_2].
Proof.
  intros GF GG. repeat (apply FOP_nil || apply FOP_cons || apply Forall_nil || apply Forall_cons); st.
Qed.

End S.

(** One byte per element of the field with 101 elements; the bytes of one challenge. *)
Definition ser101 (a : F101) : list nat := [Z.to_nat (zval 101 a)].
Example c50_example : good_ser ser101 /\ small_instance ([7; 8]%nat, l101 [11; 5]%Z) /\
  by_hash ser101 ser101 (fun H (_ : unit) => H [IF (f101 1); INs [7; 300]%nat; IFs (l101 [11; 5]%Z); IG (f101 77)])
    (fun bytes => f101 (Z.of_nat (fold_right Nat.add 0%nat bytes))) tt =
  f101 (Z.of_nat (fold_right Nat.add 0 [1; 2;0;0;0;0;0;0;0; 7;0;0;0;0;0;0;0; 44;1;0;0;0;0;0;0; 2;0;0;0;0;0;0;0; 11; 5; 77])%nat) /\
  to_bytes ser101 ser101 [IF (f101 1); INs [7; 300]%nat; IFs (l101 [11; 5]%Z); IG (f101 77)] =
  [1; 2;0;0;0;0;0;0;0; 7;0;0;0;0;0;0;0; 44;1;0;0;0;0;0;0; 2;0;0;0;0;0;0;0; 11; 5; 77]%nat.
Proof.
  split; [|split; [|split]].
  - split; [exists 1%nat; split; [lia|reflexivity]|]. intros a a' E. injection E as E. apply zp_eq.
    pose proof (zval_range 101 prime_101 a). pose proof (zval_range 101 prime_101 a'). lia.
  - unfold small_instance, u64_ok. cbn. repeat split; repeat constructor.
  - vm_compute. reflexivity.
  - vm_compute. reflexivity.
Qed.
Print Assumptions c50_pv_binds.
Print Assumptions c50_pv_separate.
Print Assumptions c50_pe_binds.
Print Assumptions c50_pe_separate.
Print Assumptions c50_fb_binds.
Print Assumptions c50_fb_separate.
