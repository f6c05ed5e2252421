(** Block arithmetic (C97). *)
From Verif Require Import PyBase IndexModel DMModel StructModel StructSpec PowerModel PowerSpec DMProofs IndexProofs StructProofs
  LayoutProofs LayoutThms PowerProofs PowerThms EntryModel StructsModel StructsSpec StructsThms2 StructsThms7 BlockSpec.
Open Scope nat_scope.

Section P.
Context {T : Type} (zero : T) (add mul : T -> T -> T).
Context (add_assoc : forall a b c, add a (add b c) = add (add a b) c) (add_0 : forall a, add zero a = a).
Notation total := (total zero add).
Notation matvec := (matvec zero add mul).
Notation blockvec := (blockvec zero add mul).
Notation RowSel := (RowSel zero).

Lemma total_app a b : total (a ++ b) = add (total a) (total b).
Proof. induction a as [|x a IH]; simpl; [now rewrite add_0|]. fold (total (a ++ b)). rewrite IH. unfold total. simpl. now rewrite add_assoc. Qed.
Lemma map_flat_map_ {A B C} (g : B -> C) (f : A -> list B) l : map g (flat_map f l) = flat_map (fun a => map g (f a)) l.
Proof. induction l as [|a l IH]; [reflexivity|]. simpl. now rewrite map_app, IH. Qed.
Lemma map_nth_seq {A} (l : list A) d : map (fun i => nth i l d) (seq 0 (length l)) = l.
Proof.
  apply (nth_ext _ _ d d); [now rewrite map_length, seq_length|]. intros n Hn. rewrite map_length, seq_length in Hn. rewrite (nth_indep _ d (nth 0 l d)) by (now rewrite map_length, seq_length).
  rewrite (map_nth (fun i => nth i l d)), seq_nth by exact Hn. reflexivity.
Qed.
Lemma total_flat {A} (f : A -> list T) l : total (flat_map f l) = total (map (fun a => total (f a)) l).
Proof. induction l as [|a l IH]; [reflexivity|]. simpl. rewrite total_app. unfold total in *. simpl. now f_equal. Qed.

Lemma plain_map s c ci : Wf s -> casadi_structure s = Ok c -> Plain s ci ->
  exists e m, At s ci e /\ e_symm e = false /\ i_get zero s (pidx ci) = Ok (RIdx m) /\ sp_is_dense (dm_sp m) = true /\ cmap_get ci (cs_map c) = Some m /\ Forall (fun k => k < cs_size c) (dm_nz m) /\ NoDup (dm_nz m).
Proof.
  intros Hw Hc (e & Hl & Hd & Hs). destruct (Leaf_At s ci e Hl) as [Ha He]. destruct (map_get_leaf s c ci e Hw Hc Hl) as (m & Hm & Hsp).
  destruct (map_ok s c ci m Hw Hc Hm) as (_ & _ & Hn & Hb & _). exists e, m. repeat split; auto; [|now rewrite Hsp]. now rewrite (i_get_at zero s c ci e Hw Hc Ha), Hm.
Qed.
Lemma sel_rows s c ci p m : Wf s -> casadi_structure s = Ok c -> Plain s ci -> cmap_get ci (cs_map c) = Some m -> Sel ci p -> RowSel s p (dm_nz m).
Proof.
  intros Hw Hc Hp Hm Hs. destruct (plain_map s c ci Hw Hc Hp) as (e & m' & Ha & _ & Hi & Hd & Hm' & _). rewrite Hm in Hm'. injection Hm' as <-.
  destruct (f_get_at zero s c ci e m Hw Hc Ha Hi Hd) as [F _]. inversion Hs; subst; constructor; exact F.
Qed.

Lemma read_leaf nan s c (d : dm T) o ci m : Wf s -> casadi_structure s = Ok c -> dm_shape d = (cs_size c, 1) -> call_struct zero nan c (CMat d) = Ok o -> Plain s ci -> cmap_get ci (cs_map c) = Some m ->
  so_get zero o (pidx ci) = Ok (RMat (DM (dm_sp m) (map (fun k => dm_val zero d (k, 0)) (dm_nz m)))).
Proof.
  intros Hw Hc Hd Ho Hp Hm. destruct (call_vector zero nan s c d Hw Hc Hd) as (o' & E & _ & _ & H). rewrite Ho in E. injection E as <-.
  destruct (plain_map s c ci Hw Hc Hp) as (e & m' & Ha & Hs & Hi & _ & Hm' & _). rewrite Hm in Hm'. injection Hm' as <-. exact (H ci e m Ha Hs Hi).
Qed.

Section View.
Context (s s2 : structure) (c c2 : cstruct) (M0 M : dm T) (V0 V : view T).
Context (Hw : Wf s) (Hw2 : Wf s2) (Hc : casadi_structure s = Ok c) (Hc2 : casadi_structure s2 = Ok c2).
Context (HM : DmOk M0) (Hsh : dm_shape M0 = (cs_size c, cs_size c2)) (HV : product_ s c s2 c2 M0 = Ok V0) (HW : Writes zero s s2 (cs_size c) (cs_size c2) V0 V) (Esp : dm_sp M = dm_sp M0) (Enz : view_matrix V = dm_nz M).

Lemma block_get ci cj p q m m2 : Plain s ci -> Plain s2 cj -> Sel ci p -> Sel cj q -> cmap_get ci (cs_map c) = Some m -> cmap_get cj (cs_map c2) = Some m2 ->
  exists B, view_get zero V [p; q] = Ok (RMat B) /\ dm_shape B = (length (dm_nz m), length (dm_nz m2)) /\
    forall i j, i < length (dm_nz m) -> j < length (dm_nz m2) -> dm_val zero B (i, j) = dm_val zero M (nth i (dm_nz m) 0, nth j (dm_nz m2) 0).
Proof.
  intros P1 P2 S1 S2 E1 E2. destruct (product_blocks zero s c s2 c2 M0 V0 V Hw Hw2 Hc Hc2 HM Hsh HV HW) as (_ & M' & F1 & F2 & F).
  assert (M' = M) as ->. { destruct M', M. simpl in *. congruence. }
  destruct (plain_map s c ci Hw Hc P1) as (_ & m' & _ & _ & _ & _ & E1' & L1 & _). rewrite E1 in E1'. injection E1' as <-.
  destruct (plain_map s2 c2 cj Hw2 Hc2 P2) as (_ & m2' & _ & _ & _ & _ & E2' & L2 & _). rewrite E2 in E2'. injection E2' as <-.
  destruct (F p q (dm_nz m) (dm_nz m2) (sel_rows s c ci p m Hw Hc P1 E1 S1) (sel_rows s2 c2 cj q m2 Hw2 Hc2 P2 E2 S2) L1 L2) as [(B & G1 & G2 & G3) _]. exists B. split; [exact G1|]. split; [exact G2|]. intros i j Hi Hj. unfold dm_val. now rewrite G3.
Qed.

Section Product.
Context (nan : T) (v y : dm T) (x o : sobj T).
Context (Hv : dm_shape v = (cs_size c2, 1)) (Hx : call_struct zero nan c2 (CMat v) = Ok x).

Theorem product_vector : dm_shape y = (cs_size c, 1) -> (forall k, k < cs_size c -> dm_val zero y (k, 0) = matvec (cs_size c2) M v k) -> call_struct zero nan c (CMat y) = Ok o ->
  (forall cj, In cj (traverseCanonicalIndex s2) -> Plain s2 cj) ->
  forall ci p q, Plain s ci -> Sel ci p -> (forall cj, In cj (traverseCanonicalIndex s2) -> Sel cj (q cj)) ->
  exists Y B X, so_get zero o (pidx ci) = Ok (RMat Y) /\
    (forall cj, In cj (traverseCanonicalIndex s2) -> view_get zero V [p; q cj] = Ok (RMat (B cj)) /\ so_get zero x (pidx cj) = Ok (RMat (X cj))) /\
    forall i, i < length (dm_nz Y) -> nth i (dm_nz Y) zero = total (map (fun cj => blockvec (B cj) (X cj) i) (traverseCanonicalIndex s2)).
Proof.
  intros Hy Hmv Ho Hpl ci p q P1 S1 S2. destruct (plain_map s c ci Hw Hc P1) as (e & m & Ha & Hs & Hi & Hd & Hm & Hb & _).
  set (nz2 := fun cj => match cmap_get cj (cs_map c2) with Some m => dm_nz m | None => [] end).
  set (B := fun cj => match view_get zero V [p; q cj] with Ok (RMat B) => B | _ => v end).
  set (X := fun cj => match so_get zero x (pidx cj) with Ok (RMat X) => X | _ => v end).
  exists (DM (dm_sp m) (map (fun k => dm_val zero y (k, 0)) (dm_nz m))), B, X. split; [exact (read_leaf nan s c y o ci m Hw Hc Hy Ho P1 Hm)|]. split.
  - intros cj Hj. destruct (plain_map s2 c2 cj Hw2 Hc2 (Hpl cj Hj)) as (_ & m2 & _ & _ & _ & _ & Hm2 & _). destruct (block_get ci cj p (q cj) m m2 P1 (Hpl cj Hj) S1 (S2 cj Hj) Hm Hm2) as (B' & E & _).
    pose proof (read_leaf nan s2 c2 v x cj m2 Hw2 Hc2 Hv Hx (Hpl cj Hj) Hm2) as E2. unfold B, X. rewrite E, E2. auto.
  - intros i Hi'. cbn [dm_nz] in *. rewrite map_length in Hi'. rewrite (nth_indep _ zero (dm_val zero y (0, 0))) by (now rewrite map_length). rewrite (map_nth (fun k => dm_val zero y (k, 0))).
    rewrite Forall_forall in Hb. rewrite Hmv by (apply Hb, nth_In; exact Hi'). unfold matvec. rewrite <- (flat_partition s2 c2 Hw2 Hc2). fold nz2. rewrite map_flat_map_, total_flat. f_equal. apply map_ext_in. intros cj Hj.
    destruct (plain_map s2 c2 cj Hw2 Hc2 (Hpl cj Hj)) as (_ & m2 & _ & _ & _ & _ & Hm2 & _). destruct (block_get ci cj p (q cj) m m2 P1 (Hpl cj Hj) S1 (S2 cj Hj) Hm Hm2) as (B' & E & _ & EB).
    pose proof (read_leaf nan s2 c2 v x cj m2 Hw2 Hc2 Hv Hx (Hpl cj Hj) Hm2) as E2. unfold blockvec, B, X. rewrite E, E2. cbn [dm_nz]. unfold nz2. rewrite Hm2, map_length. f_equal.
    rewrite <- (map_nth_seq (dm_nz m2) 0) at 1. rewrite map_map. apply map_ext_in. intros j Hj'. apply in_seq in Hj' as [_ Hj']. rewrite EB by (assumption || lia). f_equal.
    rewrite (nth_indep _ zero (dm_val zero v (0, 0))) by (rewrite map_length; lia). now rewrite (map_nth (fun k => dm_val zero v (k, 0))).
Qed.
End Product.

(** Outer products *)
Theorem product_outer nan nan' (v w : dm T) x x' : dm_shape v = (cs_size c, 1) -> call_struct zero nan c (CMat v) = Ok x -> dm_shape w = (cs_size c2, 1) -> call_struct zero nan' c2 (CMat w) = Ok x' ->
  (forall i j, i < cs_size c -> j < cs_size c2 -> dm_val zero M (i, j) = mul (dm_val zero v (i, 0)) (dm_val zero w (j, 0))) ->
  forall ci cj p q, Plain s ci -> Plain s2 cj -> Sel ci p -> Sel cj q ->
  exists B X X', view_get zero V [p; q] = Ok (RMat B) /\ so_get zero x (pidx ci) = Ok (RMat X) /\ so_get zero x' (pidx cj) = Ok (RMat X') /\ dm_shape B = (length (dm_nz X), length (dm_nz X')) /\
    forall i j, i < length (dm_nz X) -> j < length (dm_nz X') -> dm_val zero B (i, j) = mul (nth i (dm_nz X) zero) (nth j (dm_nz X') zero).
Proof.
  intros Hv Hx Hw' Hx' Ho ci cj p q P1 P2 S1 S2. destruct (plain_map s c ci Hw Hc P1) as (_ & m & _ & _ & _ & _ & Hm & Hb & _). destruct (plain_map s2 c2 cj Hw2 Hc2 P2) as (_ & m2 & _ & _ & _ & _ & Hm2 & Hb2 & _).
  destruct (block_get ci cj p q m m2 P1 P2 S1 S2 Hm Hm2) as (B & E & Hs & HB). pose proof (read_leaf nan s c v x ci m Hw Hc Hv Hx P1 Hm) as E1. pose proof (read_leaf nan' s2 c2 w x' cj m2 Hw2 Hc2 Hw' Hx' P2 Hm2) as E2.
  do 3 eexists. split; [exact E|]. split; [exact E1|]. split; [exact E2|]. cbn [dm_nz]. rewrite !map_length. split; [exact Hs|]. intros i j Hi Hj. rewrite Forall_forall in Hb, Hb2. rewrite HB, Ho by (auto using nth_In). f_equal.
  - rewrite (nth_indep _ zero (dm_val zero v (0, 0))) by (now rewrite map_length). now rewrite (map_nth (fun k => dm_val zero v (k, 0))).
  - rewrite (nth_indep _ zero (dm_val zero w (0, 0))) by (now rewrite map_length). now rewrite (map_nth (fun k => dm_val zero w (k, 0))).
Qed.
End View.

(** Transposed matrices *)
Theorem product_transpose s s2 c c2 (M M' : dm T) V V' : Wf s -> Wf s2 -> casadi_structure s = Ok c -> casadi_structure s2 = Ok c2 ->
  DmOk M -> dm_shape M = (cs_size c, cs_size c2) -> product_ s c s2 c2 M = Ok V -> DmOk M' -> dm_shape M' = (cs_size c2, cs_size c) -> product_ s2 c2 s c M' = Ok V' ->
  (forall i j, i < cs_size c -> j < cs_size c2 -> dm_val zero M' (j, i) = dm_val zero M (i, j)) ->
  forall ci cj p q, Plain s ci -> Plain s2 cj -> Sel ci p -> Sel cj q ->
  exists B B' m n, view_get zero V [p; q] = Ok (RMat B) /\ view_get zero V' [q; p] = Ok (RMat B') /\ dm_shape B = (m, n) /\ dm_shape B' = (n, m) /\
    forall i j, i < m -> j < n -> dm_val zero B' (j, i) = dm_val zero B (i, j).
Proof.
  intros Hw Hw2 Hc Hc2 HM Hsh HV HM' Hsh' HV' Ht ci cj p q P1 P2 S1 S2. destruct (plain_map s c ci Hw Hc P1) as (_ & m & _ & _ & _ & _ & Hm & Hb & _). destruct (plain_map s2 c2 cj Hw2 Hc2 P2) as (_ & m2 & _ & _ & _ & _ & Hm2 & Hb2 & _).
  pose proof (proj1 (product_blocks zero s c s2 c2 M V V Hw Hw2 Hc Hc2 HM Hsh HV (Writes_none _ _ _ _ _ _))) as N1. pose proof (proj1 (product_blocks zero s2 c2 s c M' V' V' Hw2 Hw Hc2 Hc HM' Hsh' HV' (Writes_none _ _ _ _ _ _))) as N2.
  destruct (block_get s s2 c c2 M M V V Hw Hw2 Hc Hc2 HM Hsh HV (Writes_none _ _ _ _ _ _) eq_refl N1 ci cj p q m m2 P1 P2 S1 S2 Hm Hm2) as (B & E & Hs & HB).
  destruct (block_get s2 s c2 c M' M' V' V' Hw2 Hw Hc2 Hc HM' Hsh' HV' (Writes_none _ _ _ _ _ _) eq_refl N2 cj ci q p m2 m P2 P1 S2 S1 Hm2 Hm) as (B' & E' & Hs' & HB').
  exists B, B', (length (dm_nz m)), (length (dm_nz m2)). do 4 (split; [assumption|]). intros i j Hi Hj. rewrite Forall_forall in Hb, Hb2. rewrite HB, HB' by assumption. auto using nth_In.
Qed.
End P.
