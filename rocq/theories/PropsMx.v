(** Property theorems about views of MX matrices (C84). *)
From Verif Require Import PyBase IndexModel DMModel StructModel StructSpec PowerModel PowerSpec EntryModel EntrySpec StructsModel StructsSpec
  IndexProofs StructProofs LayoutProofs LayoutThms DMProofs PowerProofs PowerThms SliceProofs EntryProofs StructsThms5 StructsThms6 StructsThms7 StructsThms8 StructsThms9 SqRepThms MxViewModel MxViewThms MxViewExamples.
Open Scope list_scope.
Open Scope nat_scope.

Section P.
Context {T : Type} (zero : T).

Theorem C84_product_mx_same_partial : forall s c s2 c2 (a : dm T),
  Wf s -> Wf s2 -> casadi_structure s = Ok c -> casadi_structure s2 = Ok c2 ->
  DmOk a -> dm_sp a = sp_dense (cs_size c) (cs_size c2) ->
  exists vw0 vd0, product_mx zero s c s2 c2 a = Ok vw0 /\ product_ s c s2 c2 a = Ok vd0 /\
    (forall q, view_get zero vw0 q = view_get zero vd0 q) /\
    forall vw vd, Both zero vw0 vd0 vw vd ->
      view_matrix vw = view_matrix vd /\
      (forall q v, snd (view_set zero vw q v) = snd (view_set zero vd q v)) /\
      (forall q, q <> [] -> view_get zero vw q = view_get zero vd q) /\
      view_get zero vw [] = Ok (RMat a).
Proof. exact (product_mx_same zero). Qed.

Theorem C84_repeated_mx_iff : forall s c (a : dm T),
  Wf s -> casadi_structure s = Ok c -> cs_size c <> 0 -> DmOk a -> dm_nr a = cs_size c -> sp_is_dense (dm_sp a) = true ->
  (exists vw, repeated_mx zero s c a = Ok vw) <-> dm_nc a = 1.
Proof. exact (repeated_mx_iff zero). Qed.

Theorem C84_repeated_mx_reads : forall s c (a : dm T) vw,
  Wf s -> casadi_structure s = Ok c -> cs_size c <> 0 -> DmOk a -> repeated_mx zero s c a = Ok vw ->
  view_matrix vw = dm_nz a /\
  view_get zero vw [PInt 0] = Ok (RMat a) /\
  forall ci e m, At s ci e -> e_symm e = false -> i_get zero s (pidx ci) = Ok (RIdx m) ->
    view_get zero vw (PInt 0 :: pidx ci) = Ok (RMat (DM (dm_sp m) (map (fun k => nth k (dm_nz a) zero) (dm_nz m)))).
Proof. exact (repeated_mx_reads zero). Qed.

Theorem C84_squared_repeated_mx_iff : forall s c (a : dm T) N,
  Wf s -> casadi_structure s = Ok c -> DmOk a -> cs_size c <> 0 ->
  dm_shape a = (cs_size c, N * cs_size c) -> sp_is_dense (dm_sp a) = true ->
  (exists vw, squared_repeated_mx zero s c a = Ok vw) <-> N = 1.
Proof. exact (squared_repeated_mx_iff zero). Qed.

Theorem C84_squared_repeated_mx_reads : forall s c (a : dm T) vw,
  Wf s -> casadi_structure s = Ok c -> DmOk a ->
  dm_sp a = sp_dense (cs_size c) (cs_size c) -> squared_repeated_mx zero s c a = Ok vw ->
  view_matrix vw = dm_nz a /\ view_get zero vw [PInt 0] = Ok (RMat a) /\
  exists vd, squared_repeated_ s c a = Ok vd /\ forall q, q <> [] -> view_get zero vw (PInt 0 :: q) = view_get zero vd (PInt 0 :: q).
Proof. exact (squared_repeated_mx_reads zero). Qed.

End P.

Open Scope Z_scope.
Theorem C84_mx_repeated_refuted : exists s c (a : dm Z) vw, Wf s /\ casadi_structure s = Ok c /\ DmOk a /\
  repeated_ s c a = Ok vw /\ repeated_mx 0 s c a = Err EException.
Proof. exact mx_repeated_refuted. Qed.

Theorem C84_mx_stack_refuted : exists s c (a : dm Z) vw, Wf s /\ casadi_structure s = Ok c /\ DmOk a /\
  squared_repeated_ s c a = Ok vw /\ squared_repeated_mx 0 s c a = Err EException.
Proof. exact mx_stack_refuted. Qed.

Theorem C84_mx_view_stale_refuted : exists s c (a B : dm Z) vw vd vw' vd', squared_mx 0 s c a = Ok vw /\ squared_ s c a = Ok vd /\
  view_set 0 vw [PInt 0; PInt 0] (PayMat B) = (vw', Ok RNone) /\ view_set 0 vd [PInt 0; PInt 0] (PayMat B) = (vd', Ok RNone) /\
  view_get 0 vd' [PInt 0; PInt 0] = Ok (RMat B) /\ view_get 0 vw' [PInt 0; PInt 0] = Ok (RMat B) /\
  view_get 0 vd' [] = Ok (RMat (DM (dm_sp a) (99 :: tl (dm_nz a)))) /\ view_get 0 vw' [] = Ok (RMat a) /\ hd 0 (dm_nz a) <> 99.
Proof. exact mx_view_stale_refuted. Qed.

Print Assumptions C84_product_mx_same_partial.
Print Assumptions C84_repeated_mx_iff.
Print Assumptions C84_repeated_mx_reads.
Print Assumptions C84_squared_repeated_mx_iff.
Print Assumptions C84_squared_repeated_mx_reads.
Print Assumptions C84_mx_repeated_refuted.
Print Assumptions C84_mx_stack_refuted.
Print Assumptions C84_mx_view_stale_refuted.
