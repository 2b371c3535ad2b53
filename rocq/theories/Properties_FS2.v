(** Properties_FS2.v: the challenges of the R1CS arguments depend on every earlier message (C50, continued). *)
From Verif Require Import Base Spec Tools CS KZG Snark R1 RP Transcript TranscriptProofs TranscriptSpec Properties_Tools Properties_Snark Properties_FS.
Local Open Scope F_scope.

Section S.
Context {F G1 G2 GT : Type} {fo : FieldOps F} {fl : FieldLaws F} {po : PairingOps F G1 G2 GT}.
Variable ser_F : F -> list nat.
Variable ser_G : G1 -> list nat.
Notation binds := (binds ser_F ser_G).
Notation separate := (separate ser_F ser_G).
Ltac msg_eq := repeat apply pair_eq; cbn [fst snd]; assumption.
Ltac bt := eapply binds_of; [assumption|assumption|intros; reflexivity
  |let a := fresh in let Ha := fresh in intros a Ha; repeat constructor; cbn [item_ok]; try assumption
  |intros; reflexivity
  |let a := fresh in let b := fresh in let E := fresh in intros a b E; injection E; intros; msg_eq].
Ltac st := eapply separate_of; [assumption|assumption|intros; reflexivity
  |let a := fresh in let Ha := fresh in intros a Ha; repeat constructor; cbn [item_ok]; try assumption
  |intros; reflexivity
  |let a := fresh in let Ha := fresh in intros a Ha; repeat constructor; cbn [item_ok]; try assumption
  |intros; cbn [map kind_of app]; reflexivity
  |let a := fresh in let b := fresh in let E := fresh in intros a b E;
   solve [discriminate E | injection E; intros; apply one_two; congruence]].

(** ** voproof_r1cs *)
(** everything that is sent in a run of the argument *)
Record r1_msgs := mkR1Msgs { qm_vk : r1_vk G1 G2; qm_x : list F; qm_cm_u_vec_1 : G1; qm_cm_s_vec : G1; qm_cm_h_vec : G1; qm_cm_r_vec_tilde : G1; qm_cm_t_vec : G1; qm_cm_h_vec_2 : G1; qm_cm_h_vec_3 : G1; qm_cm_g : G1; qm_omega : F; qm_y : F; qm_y_1 : F; qm_z : F }.
Definition r1_ok (a : r1_msgs) : Prop := u64_ok (length (qm_x a)).
Definition r1_fs_mu H (a : r1_msgs) : F := r1_v_ch_mu H (qm_vk a) (qm_x a) (qm_cm_u_vec_1 a).
Definition r1_fs_nu H (a : r1_msgs) : F := r1_v_ch_nu H (qm_vk a) (qm_x a) (qm_cm_u_vec_1 a) (qm_cm_s_vec a).
Definition r1_fs_beta H (a : r1_msgs) : F := r1_v_ch_beta H (qm_vk a) (qm_x a) (qm_cm_u_vec_1 a) (qm_cm_s_vec a) (qm_cm_h_vec a).
Definition r1_fs_alpha H (a : r1_msgs) : F := r1_v_ch_alpha H (qm_vk a) (qm_x a) (qm_cm_u_vec_1 a) (qm_cm_s_vec a) (qm_cm_h_vec a) (qm_cm_r_vec_tilde a).
Definition r1_fs_omega H (a : r1_msgs) : F := r1_v_ch_omega H (qm_vk a) (qm_x a) (qm_cm_u_vec_1 a) (qm_cm_s_vec a) (qm_cm_h_vec a) (qm_cm_r_vec_tilde a) (qm_cm_t_vec a).
Definition r1_fs_z H (a : r1_msgs) : F := r1_v_ch_z H (qm_vk a) (qm_x a) (qm_cm_u_vec_1 a) (qm_cm_s_vec a) (qm_cm_h_vec a) (qm_cm_r_vec_tilde a) (qm_cm_t_vec a) (qm_cm_h_vec_2 a) (qm_cm_h_vec_3 a).
Definition r1_fs_rand_xi H (a : r1_msgs) : F := r1_v_ch_rand_xi H (qm_vk a) (qm_x a) (qm_cm_u_vec_1 a) (qm_cm_s_vec a) (qm_cm_h_vec a) (qm_cm_r_vec_tilde a) (qm_cm_t_vec a) (qm_cm_h_vec_2 a) (qm_cm_h_vec_3 a) (qm_cm_g a) (qm_omega a) (qm_y a) (qm_y_1 a) (qm_z a).
Definition r1_fs_rand_xi_2 H (a : r1_msgs) : F := r1_v_ch_rand_xi_2 H (qm_vk a) (qm_x a) (qm_cm_u_vec_1 a) (qm_cm_s_vec a) (qm_cm_h_vec a) (qm_cm_r_vec_tilde a) (qm_cm_t_vec a) (qm_cm_h_vec_2 a) (qm_cm_h_vec_3 a) (qm_cm_g a) (qm_omega a) (qm_y a) (qm_y_1 a) (qm_z a).
(** the commitments in the verifier key *)
Definition r1_key (a : r1_msgs) := (r1_vk_cm_u_vec (qm_vk a), r1_vk_cm_w_vec (qm_vk a), r1_vk_cm_v_vec (qm_vk a), r1_vk_cm_y_vec (qm_vk a)).

Theorem c50_r1_binds : good_ser ser_F -> good_ser ser_G ->
  binds r1_fs_mu r1_ok (fun a => (r1_key a, qm_x a, qm_cm_u_vec_1 a)) /\
  binds r1_fs_nu r1_ok (fun a => (r1_key a, qm_x a, qm_cm_u_vec_1 a, qm_cm_s_vec a)) /\
  binds r1_fs_beta r1_ok (fun a => (r1_key a, qm_x a, qm_cm_u_vec_1 a, qm_cm_s_vec a, qm_cm_h_vec a)) /\
  binds r1_fs_alpha r1_ok (fun a => (r1_key a, qm_x a, qm_cm_u_vec_1 a, qm_cm_s_vec a, qm_cm_h_vec a, qm_cm_r_vec_tilde a)) /\
  binds r1_fs_omega r1_ok (fun a => (r1_key a, qm_x a, qm_cm_u_vec_1 a, qm_cm_s_vec a, qm_cm_h_vec a, qm_cm_r_vec_tilde a, qm_cm_t_vec a)) /\
  binds r1_fs_z r1_ok (fun a => (r1_key a, qm_x a, qm_cm_u_vec_1 a, qm_cm_s_vec a, qm_cm_h_vec a, qm_cm_r_vec_tilde a, qm_cm_t_vec a, qm_cm_h_vec_2 a, qm_cm_h_vec_3 a)) /\
  binds r1_fs_rand_xi r1_ok (fun a => (r1_key a, qm_x a, qm_cm_u_vec_1 a, qm_cm_s_vec a, qm_cm_h_vec a, qm_cm_r_vec_tilde a, qm_cm_t_vec a, qm_cm_h_vec_2 a, qm_cm_h_vec_3 a, qm_cm_g a, qm_y a, qm_y_1 a, qm_z a, qm_omega a / qm_z a)) /\
  binds r1_fs_rand_xi_2 r1_ok (fun a => (r1_key a, qm_x a, qm_cm_u_vec_1 a, qm_cm_s_vec a, qm_cm_h_vec a, qm_cm_r_vec_tilde a, qm_cm_t_vec a, qm_cm_h_vec_2 a, qm_cm_h_vec_3 a, qm_cm_g a, qm_y a, qm_y_1 a, qm_z a, qm_omega a / qm_z a)).
Proof. intros GF GG. repeat match goal with |- _ /\ _ => split end; bt. Qed.
(** No two challenges of a run hash the same bytes. *)
Theorem c50_r1_separate : good_ser ser_F -> good_ser ser_G ->
  ForallOrdPairs (separate r1_ok) [r1_fs_mu; r1_fs_nu; r1_fs_beta; r1_fs_alpha; r1_fs_omega; r1_fs_z; r1_fs_rand_xi; r1_fs_rand_xi_2].
Proof.
  intros GF GG. repeat (apply FOP_nil || apply FOP_cons || apply Forall_nil || apply Forall_cons); st.
Qed.

(** ** voproof_r1cs_prover_efficient *)
(** everything that is sent in a run of the argument *)
Record rp_msgs := mkRPMsgs { nm_vk : rp_vk G1 G2; nm_x : list F; nm_cm_y_vec_1 : G1; nm_cm_w_vec : G1; nm_cm_r_vec : G1; nm_cm_c_vec : G1; nm_cm_rnu_vec : G1; nm_cm_t_vec : G1; nm_cm_r_vec_tilde : G1; nm_cm_t_vec_1 : G1; nm_cm_h_vec_1 : G1; nm_cm_h_vec_2 : G1; nm_cm_g : G1; nm_omega : F; nm_y : F; nm_y_1 : F; nm_y_2 : F; nm_z : F }.
Definition rp_ok (a : rp_msgs) : Prop := u64_ok (length (nm_x a)).
Definition rp_fs_mu H (a : rp_msgs) : F := rp_v_ch_mu H (nm_vk a) (nm_x a) (nm_cm_y_vec_1 a) (nm_cm_w_vec a).
Definition rp_fs_nu H (a : rp_msgs) : F := rp_v_ch_nu H (nm_vk a) (nm_x a) (nm_cm_y_vec_1 a) (nm_cm_w_vec a) (nm_cm_r_vec a) (nm_cm_c_vec a).
Definition rp_fs_beta H (a : rp_msgs) : F := rp_v_ch_beta H (nm_vk a) (nm_x a) (nm_cm_y_vec_1 a) (nm_cm_w_vec a) (nm_cm_r_vec a) (nm_cm_c_vec a) (nm_cm_rnu_vec a) (nm_cm_t_vec a).
Definition rp_fs_alpha H (a : rp_msgs) : F := rp_v_ch_alpha H (nm_vk a) (nm_x a) (nm_cm_y_vec_1 a) (nm_cm_w_vec a) (nm_cm_r_vec a) (nm_cm_c_vec a) (nm_cm_rnu_vec a) (nm_cm_t_vec a) (nm_cm_r_vec_tilde a).
Definition rp_fs_omega H (a : rp_msgs) : F := rp_v_ch_omega H (nm_vk a) (nm_x a) (nm_cm_y_vec_1 a) (nm_cm_w_vec a) (nm_cm_r_vec a) (nm_cm_c_vec a) (nm_cm_rnu_vec a) (nm_cm_t_vec a) (nm_cm_r_vec_tilde a) (nm_cm_t_vec_1 a).
Definition rp_fs_z H (a : rp_msgs) : F := rp_v_ch_z H (nm_vk a) (nm_x a) (nm_cm_y_vec_1 a) (nm_cm_w_vec a) (nm_cm_r_vec a) (nm_cm_c_vec a) (nm_cm_rnu_vec a) (nm_cm_t_vec a) (nm_cm_r_vec_tilde a) (nm_cm_t_vec_1 a) (nm_cm_h_vec_1 a) (nm_cm_h_vec_2 a).
Definition rp_fs_rand_xi H (a : rp_msgs) : F := rp_v_ch_rand_xi H (nm_vk a) (nm_x a) (nm_cm_y_vec_1 a) (nm_cm_w_vec a) (nm_cm_r_vec a) (nm_cm_c_vec a) (nm_cm_rnu_vec a) (nm_cm_t_vec a) (nm_cm_r_vec_tilde a) (nm_cm_t_vec_1 a) (nm_cm_h_vec_1 a) (nm_cm_h_vec_2 a) (nm_cm_g a) (nm_omega a) (nm_y a) (nm_y_1 a) (nm_y_2 a) (nm_z a).
Definition rp_fs_rand_xi_2 H (a : rp_msgs) : F := rp_v_ch_rand_xi_2 H (nm_vk a) (nm_x a) (nm_cm_y_vec_1 a) (nm_cm_w_vec a) (nm_cm_r_vec a) (nm_cm_c_vec a) (nm_cm_rnu_vec a) (nm_cm_t_vec a) (nm_cm_r_vec_tilde a) (nm_cm_t_vec_1 a) (nm_cm_h_vec_1 a) (nm_cm_h_vec_2 a) (nm_cm_g a) (nm_omega a) (nm_y a) (nm_y_1 a) (nm_y_2 a) (nm_z a).
(** the commitments in the verifier key *)
Definition rp_key (a : rp_msgs) := (rp_vk_cm_u_vec (nm_vk a), rp_vk_cm_w_vec (nm_vk a), rp_vk_cm_v_vec (nm_vk a), rp_vk_cm_y_vec (nm_vk a)).

Theorem c50_rp_binds : good_ser ser_F -> good_ser ser_G ->
  binds rp_fs_mu rp_ok (fun a => (rp_key a, nm_x a, nm_cm_y_vec_1 a, nm_cm_w_vec a)) /\
  binds rp_fs_nu rp_ok (fun a => (rp_key a, nm_x a, nm_cm_y_vec_1 a, nm_cm_w_vec a, nm_cm_r_vec a, nm_cm_c_vec a)) /\
  binds rp_fs_beta rp_ok (fun a => (rp_key a, nm_x a, nm_cm_y_vec_1 a, nm_cm_w_vec a, nm_cm_r_vec a, nm_cm_c_vec a, nm_cm_rnu_vec a, nm_cm_t_vec a)) /\
  binds rp_fs_alpha rp_ok (fun a => (rp_key a, nm_x a, nm_cm_y_vec_1 a, nm_cm_w_vec a, nm_cm_r_vec a, nm_cm_c_vec a, nm_cm_rnu_vec a, nm_cm_t_vec a, nm_cm_r_vec_tilde a)) /\
  binds rp_fs_omega rp_ok (fun a => (rp_key a, nm_x a, nm_cm_y_vec_1 a, nm_cm_w_vec a, nm_cm_r_vec a, nm_cm_c_vec a, nm_cm_rnu_vec a, nm_cm_t_vec a, nm_cm_r_vec_tilde a, nm_cm_t_vec_1 a)) /\
  binds rp_fs_z rp_ok (fun a => (rp_key a, nm_x a, nm_cm_y_vec_1 a, nm_cm_w_vec a, nm_cm_r_vec a, nm_cm_c_vec a, nm_cm_rnu_vec a, nm_cm_t_vec a, nm_cm_r_vec_tilde a, nm_cm_t_vec_1 a, nm_cm_h_vec_1 a, nm_cm_h_vec_2 a)) /\
  binds rp_fs_rand_xi rp_ok (fun a => (rp_key a, nm_x a, nm_cm_y_vec_1 a, nm_cm_w_vec a, nm_cm_r_vec a, nm_cm_c_vec a, nm_cm_rnu_vec a, nm_cm_t_vec a, nm_cm_r_vec_tilde a, nm_cm_t_vec_1 a, nm_cm_h_vec_1 a, nm_cm_h_vec_2 a, nm_cm_g a, nm_y a, nm_y_1 a, nm_y_2 a, nm_z a, nm_omega a / nm_z a)) /\
  binds rp_fs_rand_xi_2 rp_ok (fun a => (rp_key a, nm_x a, nm_cm_y_vec_1 a, nm_cm_w_vec a, nm_cm_r_vec a, nm_cm_c_vec a, nm_cm_rnu_vec a, nm_cm_t_vec a, nm_cm_r_vec_tilde a, nm_cm_t_vec_1 a, nm_cm_h_vec_1 a, nm_cm_h_vec_2 a, nm_cm_g a, nm_y a, nm_y_1 a, nm_y_2 a, nm_z a, nm_omega a / nm_z a)).
Proof. intros GF GG. repeat match goal with |- _ /\ _ => split end; bt. Qed.
(** No two challenges of a run hash the same bytes. *)
Theorem c50_rp_separate : good_ser ser_F -> good_ser ser_G ->
  ForallOrdPairs (separate rp_ok) [rp_fs_mu; rp_fs_nu; rp_fs_beta; rp_fs_alpha; rp_fs_omega; rp_fs_z; rp_fs_rand_xi; rp_fs_rand_xi_2].
Proof.
  intros GF GG. repeat (apply FOP_nil || apply FOP_cons || apply Forall_nil || apply Forall_cons); st.
Qed.

End S.

Print Assumptions c50_r1_binds.
Print Assumptions c50_r1_separate.
Print Assumptions c50_rp_binds.
Print Assumptions c50_rp_separate.
