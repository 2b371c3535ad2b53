(** Properties_FS3.v: the challenges of the HPR and range-check arguments depend on every earlier message (C50, continued). *)
From Verif Require Import Base Spec Tools CS KZG Snark HP RC Transcript TranscriptProofs TranscriptSpec Properties_Tools Properties_Snark Properties_FS.
Local Open Scope F_scope.

Section S.
Context {F G1 G2 GT : Type} {fo : FieldOps F} {fl : FieldLaws F} {po : PairingOps F G1 G2 GT}.
Variable ser_F : F -> list nat.
Variable ser_G : G1 -> list nat.
Notation binds := (binds ser_F ser_G).
Notation separate := (separate ser_F ser_G).
Ltac msg_eq := repeat apply pair_eq; cbn [fst snd]; assumption.
Ltac bt := eapply binds_of; [assumption|assumption|intros; reflexivity
  |let a := fresh in let Ha := fresh in intros a Ha; repeat constructor; cbn [item_ok]; try assumption
  |intros; reflexivity
  |let a := fresh in let b := fresh in let E := fresh in intros a b E; injection E; intros; msg_eq].
Ltac st := eapply separate_of; [assumption|assumption|intros; reflexivity
  |let a := fresh in let Ha := fresh in intros a Ha; repeat constructor; cbn [item_ok]; try assumption
  |intros; reflexivity
  |let a := fresh in let Ha := fresh in intros a Ha; repeat constructor; cbn [item_ok]; try assumption
  |intros; cbn [map kind_of app]; reflexivity
  |let a := fresh in let b := fresh in let E := fresh in intros a b E;
   solve [discriminate E | injection E; intros; apply one_two; congruence]].

(** ** voproof_hpr *)
(** everything that is sent in a run of the argument *)
Record hp_msgs := mkHPMsgs { om_vk : hp_vk G1 G2; om_x : list F; om_cm_w_vec_1 : G1; om_cm_s_vec : G1; om_cm_h_vec : G1; om_cm_r_vec_tilde : G1; om_cm_t_vec : G1; om_cm_h_vec_2 : G1; om_cm_h_vec_3 : G1; om_cm_g : G1; om_omega : F; om_y : F; om_y_1 : F; om_z : F }.
Definition hp_ok (a : hp_msgs) : Prop := u64_ok (length (om_x a)).
(** the commitments in the verifier key *)
Definition hp_key (a : hp_msgs) := (hp_vk_cm_u_vec (om_vk a), hp_vk_cm_w_vec (om_vk a), hp_vk_cm_v_vec (om_vk a), hp_vk_cm_y_vec (om_vk a)).
Definition hp_fs_mu H (a : hp_msgs) : F := hp_v_ch_mu H (om_vk a) (om_x a) (om_cm_w_vec_1 a).
Definition hp_fs_nu H (a : hp_msgs) : F := hp_v_ch_nu H (om_vk a) (om_x a) (om_cm_w_vec_1 a) (om_cm_s_vec a).
Definition hp_fs_beta H (a : hp_msgs) : F := hp_v_ch_beta H (om_vk a) (om_x a) (om_cm_w_vec_1 a) (om_cm_s_vec a) (om_cm_h_vec a).
Definition hp_fs_alpha H (a : hp_msgs) : F := hp_v_ch_alpha H (om_vk a) (om_x a) (om_cm_w_vec_1 a) (om_cm_s_vec a) (om_cm_h_vec a) (om_cm_r_vec_tilde a).
Definition hp_fs_omega H (a : hp_msgs) : F := hp_v_ch_omega H (om_vk a) (om_x a) (om_cm_w_vec_1 a) (om_cm_s_vec a) (om_cm_h_vec a) (om_cm_r_vec_tilde a) (om_cm_t_vec a).
Definition hp_fs_z H (a : hp_msgs) : F := hp_v_ch_z H (om_vk a) (om_x a) (om_cm_w_vec_1 a) (om_cm_s_vec a) (om_cm_h_vec a) (om_cm_r_vec_tilde a) (om_cm_t_vec a) (om_cm_h_vec_2 a) (om_cm_h_vec_3 a).
Definition hp_fs_rand_xi H (a : hp_msgs) : F := hp_v_ch_rand_xi H (om_vk a) (om_x a) (om_cm_w_vec_1 a) (om_cm_s_vec a) (om_cm_h_vec a) (om_cm_r_vec_tilde a) (om_cm_t_vec a) (om_cm_h_vec_2 a) (om_cm_h_vec_3 a) (om_cm_g a) (om_omega a) (om_y a) (om_y_1 a) (om_z a).
Definition hp_fs_rand_xi_2 H (a : hp_msgs) : F := hp_v_ch_rand_xi_2 H (om_vk a) (om_x a) (om_cm_w_vec_1 a) (om_cm_s_vec a) (om_cm_h_vec a) (om_cm_r_vec_tilde a) (om_cm_t_vec a) (om_cm_h_vec_2 a) (om_cm_h_vec_3 a) (om_cm_g a) (om_omega a) (om_y a) (om_y_1 a) (om_z a).
Theorem c50_hp_binds : good_ser ser_F -> good_ser ser_G ->
  binds hp_fs_mu hp_ok (fun a => (hp_key a, om_x a, om_cm_w_vec_1 a)) /\
  binds hp_fs_nu hp_ok (fun a => (hp_key a, om_x a, om_cm_w_vec_1 a, om_cm_s_vec a)) /\
  binds hp_fs_beta hp_ok (fun a => (hp_key a, om_x a, om_cm_w_vec_1 a, om_cm_s_vec a, om_cm_h_vec a)) /\
  binds hp_fs_alpha hp_ok (fun a => (hp_key a, om_x a, om_cm_w_vec_1 a, om_cm_s_vec a, om_cm_h_vec a, om_cm_r_vec_tilde a)) /\
  binds hp_fs_omega hp_ok (fun a => (hp_key a, om_x a, om_cm_w_vec_1 a, om_cm_s_vec a, om_cm_h_vec a, om_cm_r_vec_tilde a, om_cm_t_vec a)) /\
  binds hp_fs_z hp_ok (fun a => (hp_key a, om_x a, om_cm_w_vec_1 a, om_cm_s_vec a, om_cm_h_vec a, om_cm_r_vec_tilde a, om_cm_t_vec a, om_cm_h_vec_2 a, om_cm_h_vec_3 a)) /\
  binds hp_fs_rand_xi hp_ok (fun a => (hp_key a, om_x a, om_cm_w_vec_1 a, om_cm_s_vec a, om_cm_h_vec a, om_cm_r_vec_tilde a, om_cm_t_vec a, om_cm_h_vec_2 a, om_cm_h_vec_3 a, om_cm_g a, om_y a, om_y_1 a, om_z a, om_omega a / om_z a)) /\
  binds hp_fs_rand_xi_2 hp_ok (fun a => (hp_key a, om_x a, om_cm_w_vec_1 a, om_cm_s_vec a, om_cm_h_vec a, om_cm_r_vec_tilde a, om_cm_t_vec a, om_cm_h_vec_2 a, om_cm_h_vec_3 a, om_cm_g a, om_y a, om_y_1 a, om_z a, om_omega a / om_z a)).
Proof. intros GF GG. repeat match goal with |- _ /\ _ => split end; bt. Qed.
(** No two challenges of a run hash the same bytes. *)
Theorem c50_hp_separate : good_ser ser_F -> good_ser ser_G ->
  ForallOrdPairs (separate hp_ok) [hp_fs_mu; hp_fs_nu; hp_fs_beta; hp_fs_alpha; hp_fs_omega; hp_fs_z; hp_fs_rand_xi; hp_fs_rand_xi_2].
Proof.
  intros GF GG. repeat (apply FOP_nil || apply FOP_cons || apply Forall_nil || apply Forall_cons); st.
Qed.

(** ** range_check *)
(** everything that is sent in a run of the argument *)
Record rc_msgs := mkRCMsgs { sm_vk : rc_vk G1 G2; sm_cm_w_vec : G1; sm_cm_m_vec : G1; sm_cm_r_vec : G1; sm_cm_s_vec : G1; sm_cm_r_vec_tilde : G1; sm_cm_t_vec_1 : G1; sm_cm_h_vec_1 : G1; sm_cm_h_vec_2 : G1; sm_cm_g : G1; sm_omega : F; sm_y : F; sm_y_1 : F; sm_y_2 : F; sm_z : F }.
Definition rc_ok (a : rc_msgs) : Prop := True.
(** the commitments in the verifier key *)
Definition rc_key (a : rc_msgs) := (rc_vk_cm_t_vec (sm_vk a)).
Definition rc_fs_beta H (a : rc_msgs) : F := rc_v_ch_beta H (sm_vk a) (sm_cm_w_vec a) (sm_cm_m_vec a).
Definition rc_fs_beta_1 H (a : rc_msgs) : F := rc_v_ch_beta_1 H (sm_vk a) (sm_cm_w_vec a) (sm_cm_m_vec a) (sm_cm_r_vec a) (sm_cm_s_vec a).
Definition rc_fs_alpha H (a : rc_msgs) : F := rc_v_ch_alpha H (sm_vk a) (sm_cm_w_vec a) (sm_cm_m_vec a) (sm_cm_r_vec a) (sm_cm_s_vec a) (sm_cm_r_vec_tilde a).
Definition rc_fs_omega H (a : rc_msgs) : F := rc_v_ch_omega H (sm_vk a) (sm_cm_w_vec a) (sm_cm_m_vec a) (sm_cm_r_vec a) (sm_cm_s_vec a) (sm_cm_r_vec_tilde a) (sm_cm_t_vec_1 a).
Definition rc_fs_z H (a : rc_msgs) : F := rc_v_ch_z H (sm_vk a) (sm_cm_w_vec a) (sm_cm_m_vec a) (sm_cm_r_vec a) (sm_cm_s_vec a) (sm_cm_r_vec_tilde a) (sm_cm_t_vec_1 a) (sm_cm_h_vec_1 a) (sm_cm_h_vec_2 a).
Definition rc_fs_rand_xi H (a : rc_msgs) : F := rc_v_ch_rand_xi H (sm_vk a) (sm_cm_w_vec a) (sm_cm_m_vec a) (sm_cm_r_vec a) (sm_cm_s_vec a) (sm_cm_r_vec_tilde a) (sm_cm_t_vec_1 a) (sm_cm_h_vec_1 a) (sm_cm_h_vec_2 a) (sm_cm_g a) (sm_omega a) (sm_y a) (sm_y_1 a) (sm_y_2 a) (sm_z a).
Definition rc_fs_rand_xi_2 H (a : rc_msgs) : F := rc_v_ch_rand_xi_2 H (sm_vk a) (sm_cm_w_vec a) (sm_cm_m_vec a) (sm_cm_r_vec a) (sm_cm_s_vec a) (sm_cm_r_vec_tilde a) (sm_cm_t_vec_1 a) (sm_cm_h_vec_1 a) (sm_cm_h_vec_2 a) (sm_cm_g a) (sm_omega a) (sm_y a) (sm_y_1 a) (sm_y_2 a) (sm_z a).
Theorem c50_rc_binds : good_ser ser_F -> good_ser ser_G ->
  binds rc_fs_beta rc_ok (fun a => (rc_key a, sm_cm_w_vec a, sm_cm_m_vec a)) /\
  binds rc_fs_beta_1 rc_ok (fun a => (rc_key a, sm_cm_w_vec a, sm_cm_m_vec a, sm_cm_r_vec a, sm_cm_s_vec a)) /\
  binds rc_fs_alpha rc_ok (fun a => (rc_key a, sm_cm_w_vec a, sm_cm_m_vec a, sm_cm_r_vec a, sm_cm_s_vec a, sm_cm_r_vec_tilde a)) /\
  binds rc_fs_omega rc_ok (fun a => (rc_key a, sm_cm_w_vec a, sm_cm_m_vec a, sm_cm_r_vec a, sm_cm_s_vec a, sm_cm_r_vec_tilde a, sm_cm_t_vec_1 a)) /\
  binds rc_fs_z rc_ok (fun a => (rc_key a, sm_cm_w_vec a, sm_cm_m_vec a, sm_cm_r_vec a, sm_cm_s_vec a, sm_cm_r_vec_tilde a, sm_cm_t_vec_1 a, sm_cm_h_vec_1 a, sm_cm_h_vec_2 a)) /\
  binds rc_fs_rand_xi rc_ok (fun a => (rc_key a, sm_cm_w_vec a, sm_cm_m_vec a, sm_cm_r_vec a, sm_cm_s_vec a, sm_cm_r_vec_tilde a, sm_cm_t_vec_1 a, sm_cm_h_vec_1 a, sm_cm_h_vec_2 a, sm_cm_g a, sm_y a, sm_y_1 a, sm_y_2 a, sm_z a, sm_omega a / sm_z a)) /\
  binds rc_fs_rand_xi_2 rc_ok (fun a => (rc_key a, sm_cm_w_vec a, sm_cm_m_vec a, sm_cm_r_vec a, sm_cm_s_vec a, sm_cm_r_vec_tilde a, sm_cm_t_vec_1 a, sm_cm_h_vec_1 a, sm_cm_h_vec_2 a, sm_cm_g a, sm_y a, sm_y_1 a, sm_y_2 a, sm_z a, sm_omega a / sm_z a)).
Proof. intros GF GG. repeat match goal with |- _ /\ _ => split end; bt. Qed.
(** No two challenges of a run hash the same bytes. *)
Theorem c50_rc_separate : good_ser ser_F -> good_ser ser_G ->
  ForallOrdPairs (separate rc_ok) [rc_fs_beta; rc_fs_beta_1; rc_fs_alpha; rc_fs_omega; rc_fs_z; rc_fs_rand_xi; rc_fs_rand_xi_2].
Proof.
  intros GF GG. repeat (apply FOP_nil || apply FOP_cons || apply Forall_nil || apply Forall_cons); st.
Qed.

End S.

Print Assumptions c50_hp_binds.
Print Assumptions c50_hp_separate.
Print Assumptions c50_rc_binds.
Print Assumptions c50_rc_separate.
