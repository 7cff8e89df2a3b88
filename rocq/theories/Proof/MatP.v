(** Matrix algebra. *)
From Coq Require Import ZArith Reals Lra.
From Verif Require Import Model.Base Model.RealM Model.VecM Model.MatM.
Open Scope R_scope.

Ltac mats := repeat match goal with
  | m : m44 |- _ => let a := fresh "r" in let b := fresh "r" in let c := fresh "r" in let d := fresh "r" in destruct m as [a b c d]
  | v : r4 |- _ => let a := fresh "x" in let b := fresh "x" in let c := fresh "x" in let d := fresh "x" in destruct v as [a b c d]
  end.
Lemma rowmul_assoc v a b : rowmul (rowmul v a) b = rowmul v (mmul a b).
Proof. mats. unfold mmul, rowmul. cbn. f_equal; ring. Qed.
Lemma mmul_assoc a b c : mmul (mmul a b) c = mmul a (mmul b c).
Proof. unfold mmul. cbn [row0 row1 row2 row3]. f_equal; apply rowmul_assoc. Qed.
Lemma rowmul_ident v : rowmul v ident = v.
Proof. mats. unfold rowmul, ident. cbn. f_equal; ring. Qed.
Lemma mmul_ident_r a : mmul a ident = a.
Proof. destruct a as [r s t u]. unfold mmul. cbn [row0 row1 row2 row3]. now rewrite !rowmul_ident. Qed.
Lemma mmul_ident_l a : mmul ident a = a.
Proof. mats. unfold mmul, rowmul, ident. cbn. repeat f_equal; ring. Qed.
Lemma inverse_r m : det m <> 0 -> mmul m (inverse m) = ident.
Proof.
  intros H. unfold inverse, reqb. destruct (Req_EM_T (det m) 0); [easy|].
  mats. unfold mmul, rowmul, ident, row_div, adjugate. unfold det in *. unfold sub2 in *. cbn [row0 row1 row2 row3 e0 e1 e2 e3] in *.
  f_equal; f_equal; field; auto.
Qed.
Lemma inverse_l m : det m <> 0 -> mmul (inverse m) m = ident.
Proof.
  intros H. unfold inverse, reqb. destruct (Req_EM_T (det m) 0); [easy|].
  mats. unfold mmul, rowmul, ident, row_div, adjugate. unfold det in *. unfold sub2 in *. cbn [row0 row1 row2 row3 e0 e1 e2 e3] in *.
  f_equal; f_equal; field; auto.
Qed.
Lemma det_mul a b : det (mmul a b) = det a * det b.
Proof. mats. unfold mmul, rowmul, det, sub2. cbn. ring. Qed.
