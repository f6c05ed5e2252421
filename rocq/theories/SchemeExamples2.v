(** Examples for the initial point of the integrator and the properties of a scheme (C74, C75). *)
From Coq Require Import Reals Lra FunctionalExtensionality.
From Coquelicot Require Import Coquelicot.
From Verif Require Import PyBase IndexModel DMModel DMProofs StructModel StructSpec StructProofs PowerModel PowerSpec EntryModel StructsModel IneqModel IneqThms DaeModel DaeSpec DaeThms StructsSpec EntrySpec EntryProofs StructsThms5 StructsThms7 StructsThms11 PowerThms NumModel NumInst NumSpec PolynomialModel PiecewiseModel PdqModel SchemeModel SchemeAttrModel
  PolySpec PiecewiseSpec PdqSpec SchemeSpec PolyMath PolynomialBase PolynomialThms PolynomialThms2 PiecewiseThms PdqThms PdqThms2 SchemeThms SchemeThms2 SchemeThms3 SchemeThms4 SchemeThms5 SchemeThms6 SchemeExamples.
Open Scope R_scope.
Open Scope R_scope.

(** A rootfinder that answers with its starting point, from x0 = 7: the trajectory is constant. *)
Example integrator_start_ex : exists out, integrator_ keep 0 expts exf ext 2 "radau" None (fun _ => 7) (fun _ => 5) (ex0 2) (ex0 1) = Ok out /\
  dm_nz (mat_dm (io_x out)) ++ dm_nz (mat_dm (io_K out)) ++ dm_nz (mat_dm (io_Z out)) = [7; 7; 7; 0; 0; 0; 0].
Proof.
  assert (Su : Shaped (ex0 2) (f_nu exf) (ivals ext)) by (split; reflexivity). assert (Sp : Shaped (ex0 1) (f_np exf) 1) by (split; reflexivity).
  destruct (proj2 (integrator_ok_iff expts exf ext 2 "radau" extau None ex_points ext_len ex_dae ex_tdp eq_refl keep 0 (fun _ => 7) (fun _ => 5) (ex0 2) (ex0 1) Su Sp keep_answers)) as [out E].
  { split; [exact ex_full|]. left. reflexivity. }
  exists out. split; [exact E|].
  destruct (integrator_start expts exf ext 2 "radau" extau None ex_points ext_len ex_dae ex_tdp eq_refl keep 0 (fun _ => 7) (fun _ => 5) (ex0 2) (ex0 1) out E) as (s0 & var & w & _ & _ & Hw & Ho).
  unfold keep in Hw. injection Hw as <-. rewrite <- Ho by reflexivity. reflexivity.
Qed.
(** The properties of the scheme of the examples. *)
Example properties_ex : exists s, scheme_ expts exf ext 2 "radau" None false exx exK (ex0 4) (ex0 2) (ex0 1) = Ok s /\
  sc_property s "numTotalCollocationPoints" = Ok (VNat 4) /\ sc_property s "xdot" = Ok (VMatr exK) /\ sc_property s "t" = Ok (VVec ext) /\ sc_property s "pdq" = Err EAttr.
Proof.
  destruct scheme_ex as (s & _ & _ & _ & E & _). exists s. split; [exact E|].
  destruct (property_values expts exf ext 2 "radau" extau None false exx exK (ex0 4) (ex0 2) (ex0 1) ex_points ext_len ex_dae ex_tdp ex_vars s E) as (H1 & H2 & _ & _ & H3 & _). auto.
Qed.
(** C75: a scheme can be built, but its [pdq] cannot be read. *)
Theorem pdq_refuted : exists cspts f t order method g rep x K Z u p s, scheme_ cspts f t order method g rep x K Z u p = Ok s /\ sc_property s "pdq" = Err EAttr.
Proof. destruct scheme_ex as (s & _ & _ & _ & E & _). do 13 eexists. split; [exact E|reflexivity]. Qed.
