(** KZGSpec.v: vocabulary of the KZG property statements (independent of the KZG functions). *)
From Verif Require Import Base KZG.
Section S.
Context {F G : Type} {vs : VS F G}.
(** Combination of group elements with powers of xi: c_0 + xi (c_1 + xi (c_2 + ...)) = Sum xi^i c_i. *)
Definition lin_comb (xi : F) (l : list G) : G :=
  fold_right (fun c acc => vadd c (vscale xi acc)) v0 l.
End S.
