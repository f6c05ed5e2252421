(** Property theorems about block arithmetic with product views (C97). *)
From Verif Require Import PyBase IndexModel DMModel StructModel StructSpec PowerModel PowerSpec DMProofs StructsModel StructsSpec StructsThms7 BlockSpec BlockThms.
Open Scope nat_scope.

Section P.
Context (T : Type) (zero : T) (add mul : T -> T -> T).
Context (add_assoc : forall a b c, add a (add b c) = add (add a b) c) (add_0 : forall a, add zero a = a).
Notation total := (total zero add).
Notation matvec := (matvec zero add mul).
Notation blockvec := (blockvec zero add mul).

Section View.
Context (s s2 : structure) (c c2 : cstruct) (M0 M : dm T) (V0 V : view T).
Context (Hw : Wf s) (Hw2 : Wf s2) (Hc : casadi_structure s = Ok c) (Hc2 : casadi_structure s2 = Ok c2).
Context (HM : DmOk M0) (Hsh : dm_shape M0 = (cs_size c, cs_size c2)) (HV : product_ s c s2 c2 M0 = Ok V0) (HW : Writes zero s s2 (cs_size c) (cs_size c2) V0 V) (Esp : dm_sp M = dm_sp M0) (Enz : view_matrix V = dm_nz M).
Context (nan : T) (v y : dm T) (x o : sobj T).
Theorem C97_product_vector : dm_shape v = (cs_size c2, 1) -> call_struct zero nan c2 (CMat v) = Ok x ->
  dm_shape y = (cs_size c, 1) -> (forall k, k < cs_size c -> dm_val zero y (k, 0) = matvec (cs_size c2) M v k) -> call_struct zero nan c (CMat y) = Ok o ->
  (forall cj, In cj (traverseCanonicalIndex s2) -> Plain s2 cj) ->
  forall ci p q, Plain s ci -> Sel ci p -> (forall cj, In cj (traverseCanonicalIndex s2) -> Sel cj (q cj)) ->
  exists Y B X, so_get zero o (pidx ci) = Ok (RMat Y) /\
    (forall cj, In cj (traverseCanonicalIndex s2) -> view_get zero V [p; q cj] = Ok (RMat (B cj)) /\ so_get zero x (pidx cj) = Ok (RMat (X cj))) /\
    forall i, i < length (dm_nz Y) -> nth i (dm_nz Y) zero = total (map (fun cj => blockvec (B cj) (X cj) i) (traverseCanonicalIndex s2)).
Proof. intros Hv Hx. exact (product_vector zero add mul add_assoc add_0 s s2 c c2 M0 M V0 V Hw Hw2 Hc Hc2 HM Hsh HV HW Esp Enz nan v y x o Hv Hx). Qed.

Theorem C97_product_outer : forall nan nan' (v w : dm T) x x',
  dm_shape v = (cs_size c, 1) -> call_struct zero nan c (CMat v) = Ok x -> dm_shape w = (cs_size c2, 1) -> call_struct zero nan' c2 (CMat w) = Ok x' ->
  (forall i j, i < cs_size c -> j < cs_size c2 -> dm_val zero M (i, j) = mul (dm_val zero v (i, 0)) (dm_val zero w (j, 0))) ->
  forall ci cj p q, Plain s ci -> Plain s2 cj -> Sel ci p -> Sel cj q ->
  exists B X X', view_get zero V [p; q] = Ok (RMat B) /\ so_get zero x (pidx ci) = Ok (RMat X) /\ so_get zero x' (pidx cj) = Ok (RMat X') /\ dm_shape B = (length (dm_nz X), length (dm_nz X')) /\
    forall i j, i < length (dm_nz X) -> j < length (dm_nz X') -> dm_val zero B (i, j) = mul (nth i (dm_nz X) zero) (nth j (dm_nz X') zero).
Proof. exact (product_outer zero mul s s2 c c2 M0 M V0 V Hw Hw2 Hc Hc2 HM Hsh HV HW Esp Enz). Qed.
End View.

Theorem C97_product_transpose : forall s s2 c c2 (M M' : dm T) V V',
  Wf s -> Wf s2 -> casadi_structure s = Ok c -> casadi_structure s2 = Ok c2 ->
  DmOk M -> dm_shape M = (cs_size c, cs_size c2) -> product_ s c s2 c2 M = Ok V -> DmOk M' -> dm_shape M' = (cs_size c2, cs_size c) -> product_ s2 c2 s c M' = Ok V' ->
  (forall i j, i < cs_size c -> j < cs_size c2 -> dm_val zero M' (j, i) = dm_val zero M (i, j)) ->
  forall ci cj p q, Plain s ci -> Plain s2 cj -> Sel ci p -> Sel cj q ->
  exists B B' m n, view_get zero V [p; q] = Ok (RMat B) /\ view_get zero V' [q; p] = Ok (RMat B') /\ dm_shape B = (m, n) /\ dm_shape B' = (n, m) /\
    forall i j, i < m -> j < n -> dm_val zero B' (j, i) = dm_val zero B (i, j).
Proof. exact (product_transpose zero). Qed.

End P.
Print Assumptions C97_product_vector.
Print Assumptions C97_product_outer.
Print Assumptions C97_product_transpose.
