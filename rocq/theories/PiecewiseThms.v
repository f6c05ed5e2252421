(** Proofs about piecewise polynomials (C51-C54). *)
From Coq Require Import Reals Lra Permutation.
From Coquelicot Require Import Coquelicot.
From Verif Require Import PyBase NumModel NumInst NumSpec PolynomialModel PiecewiseModel PolySpec PiecewiseSpec PolyMath PolynomialBase PolynomialThms PolynomialThms2.
Open Scope R_scope.

(** ** Searching ascending lists *)
Lemma Asc_tail a l : Asc (a :: l) -> Asc l.
Proof. intros H i j Hij. apply (H (S i) (S j)). simpl. lia. Qed.
Lemma Asc_le l i j : Asc l -> (i <= j < length l)%nat -> node l i <= node l j.
Proof. intros H Hij. destruct (Nat.eq_dec i j) as [->|]; [lra|]. left. apply H. lia. Qed.
Lemma count_prefix (P : R -> bool) l : Asc l -> (forall y z, y <= z -> P z = true -> P y = true) ->
  forall i, (i < length l)%nat -> P (node l i) = true <-> (i < length (filter P l))%nat.
Proof.
  intros HA HP. induction l as [|a l IH]; intros i Hi; [simpl in Hi; lia|]. pose proof (IH (Asc_tail _ _ HA)) as IH'. clear IH. simpl filter. destruct (P a) eqn:Ea.
  - destruct i as [|i]; [simpl; split; [lia|intros; exact Ea]|]. simpl. simpl in Hi. specialize (IH' i ltac:(lia)). unfold node in *. simpl. rewrite IH'. lia.
  - assert (F : filter P l = []).
    { destruct (filter P l) as [|b r] eqn:Ef; [reflexivity|]. exfalso. assert (Hb : In b (filter P l)) by (rewrite Ef; now left). apply filter_In in Hb. destruct Hb as [Hb Pb].
      rewrite (HP a b) in Ea; [discriminate| |exact Pb]. apply node_in in Hb. destruct Hb as (k & Hk & <-). left. apply (HA 0%nat (S k)). simpl. lia. }
    rewrite F. simpl. split; [|lia]. intros H. exfalso. rewrite (HP a (node (a :: l) i)) in Ea; [discriminate| |exact H]. apply (Asc_le (a :: l) 0 i HA). lia.
Qed.
Lemma filter_le {B} (P : B -> bool) l : (length (filter P l) <= length l)%nat.
Proof. induction l; simpl; [lia|]. destruct (P a); simpl; lia. Qed.
(** The interval found by [clip(searchsorted(...) - 1, 0, N - 1)] *)
Lemma found_interval (t : list R) x right : Asc t -> (2 <= length t)%nat ->
  let i := clip1 (searchsorted t x right) (Z.of_nat (length t) - 2) in
  (i + 1 < length t)%nat /\
  (i = 0%nat \/ if right then node t i <= x else node t i < x) /\
  ((i + 2 = length t)%nat \/ if right then x < node t (i + 1) else x <= node t (i + 1)).
Proof.
  intros HA HL i. set (P := fun y => if right then negb (nltb x y) else nltb y x). assert (HP : forall y z, y <= z -> P z = true -> P y = true).
  { intros y z Hyz. unfold P. rnum. destruct right; rewrite ?negb_true_iff.
    - rewrite <- !not_true_iff_false, !Rlt_b_iff. lra.
    - rewrite !Rlt_b_iff. lra. }
  pose proof (count_prefix P t HA HP) as HC. pose proof (filter_le P t) as Hle. unfold searchsorted in i. fold P in i. set (k := length (filter P t)) in *.
  assert (Hi : i = Nat.min (k - 1) (length t - 2)) by (unfold i, clip1; lia). clearbody i.
  assert (PT : forall j, P (node t j) = true -> if right then node t j <= x else node t j < x).
  { intros j. unfold P. rnum. destruct right; [rewrite negb_true_iff, <- not_true_iff_false, Rlt_b_iff; lra|rewrite Rlt_b_iff; lra]. }
  assert (PF : forall j, P (node t j) <> true -> if right then x < node t j else x <= node t j).
  { intros j. unfold P. rnum. destruct right; [rewrite negb_true_iff, <- not_true_iff_false, Rlt_b_iff; lra|rewrite Rlt_b_iff; lra]. }
  split; [lia|]. split.
  - destruct (Nat.eq_dec k 0) as [E|E]; [left; lia|]. right. apply PT. apply HC; lia.
  - destruct (Nat.eq_dec (i + 2) (length t)) as [E|E]; [now left|right]. apply PF. rewrite HC by lia. lia.
Qed.

(** ** Horizontal stacks *)
Lemma offset_S ws k : (k < length ws)%nat -> offset ws (S k) = (offset ws k + nth k ws 0)%nat.
Proof.
  unfold offset. revert k. induction ws as [|w ws IH]; intros k Hk; [simpl in Hk; lia|]. destruct k as [|k]; [simpl; lia|]. change (w + list_sum (firstn (S k) ws) = w + list_sum (firstn k ws) + nth k ws 0)%nat.
  rewrite IH by (simpl in Hk; lia). lia.
Qed.
Lemma offset_all ws : offset ws (length ws) = list_sum ws.
Proof. unfold offset. now rewrite firstn_all. Qed.
Lemma hcat_from_spec m (l : list (mat R)) : forall a, nr a = m -> (forall b, In b l -> nr b = m) ->
  exists M, hcat_from a l = Ok M /\ nr M = m /\ nc M = (nc a + list_sum (map nc l))%nat /\
    (forall i j, (j < nc a)%nat -> at_m M i j = at_m a i j) /\
    (forall k b, nth_error l k = Some b -> forall i j, (j < nc b)%nat -> at_m M i (nc a + offset (map nc l) k + j) = at_m b i j).
Proof.
  induction l as [|b l IH]; intros a Ha Hl.
  - exists a. simpl. split; [reflexivity|]. split; [exact Ha|]. split; [lia|]. split; [auto|]. intros [|k] b H; discriminate.
  - cbn [hcat_from]. unfold hcat2. rewrite Ha, (Hl b (or_introl eq_refl)), Nat.eqb_refl. cbn [rbind].
    destruct (IH (Mat m (nc a + nc b) (fun i j => if (j <? nc a)%nat then at_m a i j else at_m b i (j - nc a)%nat)) eq_refl (fun c Hc => Hl c (or_intror Hc))) as (M & E & Hr & Hc & H1 & H2).
    cbn [nc at_m] in *. exists M. split; [exact E|]. split; [exact Hr|]. split; [simpl; lia|]. split.
    + intros i j Hj. rewrite H1 by lia. destruct (Nat.ltb_spec j (nc a)); [reflexivity|lia].
    + intros [|k] c Hk i j Hj.
      * injection Hk as <-. unfold offset. simpl. rewrite Nat.add_0_r, H1 by lia. destruct (Nat.ltb_spec (nc a + j) (nc a)); [lia|]. f_equal. lia.
      * rewrite <- (H2 k c Hk i j Hj). f_equal. unfold offset. simpl. lia.
Qed.
Lemma hstack_spec m (l : list (mat R)) : l <> [] -> (forall b, In b l -> nr b = m) ->
  exists M, hstack l = Ok M /\ nr M = m /\ nc M = list_sum (map nc l) /\
    forall k b, nth_error l k = Some b -> forall i j, (j < nc b)%nat -> at_m M i (offset (map nc l) k + j) = at_m b i j.
Proof.
  destruct l as [|a l]; [contradiction|]. intros _ H. destruct (hcat_from_spec m l a (H a (or_introl eq_refl)) (fun b Hb => H b (or_intror Hb))) as (M & E & Hr & Hc & H1 & H2).
  exists M. split; [exact E|]. split; [exact Hr|]. split; [exact Hc|]. intros [|k] b Hk i j Hj; [injection Hk as <-; unfold offset; simpl; now apply H1|].
  rewrite <- (H2 k b Hk i j Hj). reflexivity.
Qed.

(** ** C51 *)
Lemma width_pos p m i : PpOk p m -> (i < nint p)%nat -> 0 < width p i.
Proof. intros (L & A & _) Hi. unfold width, bound, nint in *. assert (node (pp_t p) i < node (pp_t p) (i + 1)) by (apply A; lia). lra. Qed.
Theorem belongs_unique p m right t : PpOk p m -> exists i, Belongs p right t i /\ forall j, Belongs p right t j -> j = i.
Proof.
  intros (L & A & _). pose proof (found_interval (pp_t p) t right A L) as (H1 & H2 & H3). set (i := clip1 _ _) in *. exists i. split.
  - unfold Belongs, nint, bound. split; [lia|]. split; [exact H2|]. destruct H3 as [H3|H3]; [left; lia|now right].
  - intros j (J1 & J2 & J3). unfold nint, bound in *. destruct (Nat.lt_total j i) as [K|[K|K]]; [|exact K|]; exfalso.
    + destruct J3 as [J3|J3]; [lia|]. destruct H2 as [H2|H2]; [lia|]. assert (node (pp_t p) (j + 1) <= node (pp_t p) i) by (apply Asc_le; auto; lia). destruct right; lra.
    + destruct H3 as [H3|H3]; [lia|]. destruct J2 as [J2|J2]; [lia|]. assert (node (pp_t p) (i + 1) <= node (pp_t p) j) by (apply Asc_le; auto; lia). destruct right; lra.
Qed.
Theorem piece_exists p m i r : PpOk p m -> (i < nint p)%nat -> exists f, Piece p i r f.
Proof.
  intros HP Hi. pose proof (width_pos p m i HP Hi) as Hw. destruct HP as (L & A & Hb & Hd & _). set (tau := b_tau (pp_b p)) in *.
  exists (fun t => Sum (length tau) (fun j => at_m (coef p i) r j * polyval (lagrange tau j) ((t - bound p i) / width p i))). split.
  - unfold nnodes. fold tau. apply (PolyLt_ext _ (fun t => Sum (length tau) (fun j => at_m (coef p i) r j * polyval (lagrange tau j) (/ width p i * t + - bound p i / width p i)))); [intros t; apply Sum_ext; intros; do 2 f_equal; field; lra|].
    apply (PolyLt_Sum _ _ (fun j t => at_m (coef p i) r j * polyval (lagrange tau j) (/ width p i * t + - bound p i / width p i))). intros k Hk. apply PolyLt_scal. apply (PolyLt_comp _ (polyval (lagrange tau k))). now apply lagrange_poly.
  - unfold nnodes. fold tau. intros j Hj. replace ((bound p i + node tau j * width p i - bound p i) / width p i) with (node tau j) by (field; lra).
    rewrite (Sum_single _ j _ Hj); [rewrite lagrange_delta, Nat.eqb_refl by assumption; ring|]. intros k Hk Hn. rewrite lagrange_delta by assumption. destruct (Nat.eqb_spec k j); [contradiction|ring].
Qed.
Lemma piece_moved p m i r f : PpOk p m -> (i < nint p)%nat -> Piece p i r f ->
  PolyLt (nnodes p) (fun s => f (bound p i + s * width p i)).
Proof. intros _ _ [Hf _]. apply (PolyLt_ext _ (fun s => f (width p i * s + bound p i))); [intros; f_equal; ring|now apply PolyLt_comp]. Qed.
(** The matrix product of a coefficient matrix with interpolation weights. *)
Lemma piece_dot p m i ts : PpOk p m -> (i < nint p)%nat -> ts <> [] ->
  exists M Y, interp_matrix (pp_b p) (PVec ts) = Ok M /\ mdot (coef p i) (mtr M) = Ok Y /\ nr Y = m /\ nc Y = length ts /\
    forall r f k, Piece p i r f -> (k < length ts)%nat -> at_m Y r k = f (bound p i + node ts k * width p i).
Proof.
  intros HP Hi Hts. pose proof HP as (L & A & Hb & Hd & Hc & Hm). destruct (interpolation_matrix _ _ ts Hb Hd Hts) as (M & EM & Mr & Mc & HM & _). destruct (Hm i Hi) as [C1 C2].
  exists M. unfold mdot. cbn [mtr nr nc at_m]. rewrite Mc, C2, Nat.eqb_refl || rewrite C2, Mc; unfold nnodes; rewrite ?Nat.eqb_refl.
  eexists. split; [exact EM|]. split; [reflexivity|]. cbn [nr nc at_m]. split; [exact C1|]. split; [exact Mr|]. intros r f k Hf Hk. rewrite nsum_Sum.
  rewrite <- (HM k (fun s => f (bound p i + s * width p i)) Hk (piece_moved p m i r f HP Hi Hf)). apply Sum_ext. intros j Hj. destruct Hf as [_ Hf]. rewrite (Hf j Hj). rnum. ring.
Qed.
Lemma eval1_spec p m right t : PpOk p m -> exists Y, pp_eval1 p right t = Ok Y /\ nr Y = m /\ nc Y = 1%nat /\
  forall i r f, Belongs p right t i -> Piece p i r f -> at_m Y r 0 = f t.
Proof.
  intros HP. destruct (belongs_unique p m right t HP) as (i & Hi & Hu). pose proof (width_pos p m i HP (proj1 Hi)) as Hw. unfold pp_eval1.
  assert (E : clip1 (searchsorted (pp_t p) t right) (Z.of_nat (length (pp_t p)) - 2) = i).
  { apply Hu. destruct HP as (L & A & _). pose proof (found_interval (pp_t p) t right A L) as (H1 & H2 & H3). split; [unfold nint; lia|]. split; [exact H2|]. destruct H3 as [H3|H3]; [left; unfold nint; lia|now right]. }
  rewrite E. unfold lget. rewrite (nth_error_nth' (pp_c p) (Mat 0 0 (fun _ _ => 0))) by (destruct HP as (_ & _ & _ & _ & -> & _); apply Hi). fold (coef p i). cbn [rbind].
  rewrite interpolation_matrix_scalar. match goal with |- context [PVec [?s]] => destruct (piece_dot p m i [s] HP (proj1 Hi) ltac:(discriminate)) as (M & Y & EM & EY & Yr & Yc & HY) end.
  rewrite EM. cbn [rbind]. exists Y. split; [exact EY|]. split; [exact Yr|]. split; [exact Yc|]. intros i' r f Hi' Hf. rewrite (Hu i' Hi') in Hf. rewrite (HY r f 0%nat Hf) by (simpl; lia). f_equal.
  unfold node. simpl nth. rnum. change (vget (pp_t p)) with (bound p). fold (width p i). field. lra.
Qed.
Definition is_right (c : string) : bool := String.eqb c "right".
Theorem call_spec p m ts c : PpOk p m -> ts <> [] -> c = "left"%string \/ c = "right"%string ->
  exists Y, pp_call p (PVec ts) c = Ok Y /\ nr Y = m /\ nc Y = length ts /\
    forall k i r f, (k < length ts)%nat -> Belongs p (is_right c) (node ts k) i -> Piece p i r f -> at_m Y r k = f (node ts k).
Proof.
  intros HP Hts Hc. unfold pp_call. replace (negb _) with false by (destruct Hc as [-> | ->]; reflexivity). cbn [rbind].
  destruct (rmapM_Forall2 (pp_eval1 p (is_right c)) (fun t Y => nr Y = m /\ nc Y = 1%nat /\ forall i r f, Belongs p (is_right c) t i -> Piece p i r f -> at_m Y r 0 = f t) ts) as (l & El & Hl).
  { intros t _. destruct (eval1_spec p m (is_right c) t HP) as (Y & E & H). exists Y. split; [exact E|exact H]. }
  unfold is_right in El. rewrite El. cbn [rbind]. pose proof (Forall2_len _ _ _ Hl) as HL.
  assert (HN : forall b, In b l -> nr b = m /\ nc b = 1%nat).
  { intros b Hb. clear - Hl Hb. induction Hl as [|t Y ts l H Hl IH]; [destruct Hb|]. destruct Hb as [<-|Hb]; [split; apply H|auto]. }
  destruct (hstack_spec m l) as (M & EM & Mr & Mc & HM); [intros ->; destruct ts; [contradiction|discriminate]|intros; now apply HN|].
  exists M. split; [exact EM|]. split; [exact Mr|].
  assert (W : map nc l = repeat 1%nat (length ts)).
  { rewrite HL. clear - HN. induction l as [|b l IH]; [reflexivity|]. simpl. rewrite (proj2 (HN b (or_introl eq_refl))). f_equal. apply IH. intros; apply HN; now right. }
  split; [rewrite Mc, W; clear; induction (length ts); simpl; lia|]. intros k i r f Hk Hi Hf.
  assert (Of : offset (map nc l) k = k).
  { rewrite W. unfold offset. clear - Hk. revert k Hk. induction (length ts) as [|n IH]; intros k Hk; [lia|]. destruct k; [reflexivity|]. simpl. now rewrite IH by lia. }
  destruct (nth_error l k) as [b|] eqn:Eb; [|apply nth_error_None in Eb; lia]. pose proof (HM k b Eb r 0%nat) as H. rewrite Of, Nat.add_0_r in H. rewrite H by (destruct (HN b (nth_error_In _ _ Eb)) as [_ ->]; lia).
  pose proof (Forall2_nth' _ _ _ 0 b k Hl Hk) as (_ & _ & H'). rewrite (nth_error_nth _ _ b Eb) in H'. now apply (H' i).
Qed.
Theorem call_scalar (p : ppoly R) t c : pp_call p (PNum t) c = pp_call p (PVec [t]) c.
Proof. reflexivity. Qed.
Theorem call_bad_continuity (p : ppoly R) t c : c <> "left"%string -> c <> "right"%string -> pp_call p t c = Err EValue.
Proof. intros H1 H2. unfold pp_call. destruct (String.eqb_spec c "left"); [contradiction|]. destruct (String.eqb_spec c "right"); [contradiction|]. reflexivity. Qed.
(** Off the bounds both options use the same interval. *)
Theorem belongs_open p m t i : PpOk p m -> ~ In t (pp_t p) -> (Belongs p true t i <-> Belongs p false t i).
Proof.
  intros HP Ht. assert (N : forall k, (k < length (pp_t p))%nat -> bound p k <> t).
  { intros k Hk E. apply Ht. apply node_in. exists k. auto. }
  assert (L2 : (2 <= length (pp_t p))%nat) by apply HP. unfold Belongs. split; intros (H1 & H2 & H3); (split; [exact H1|]; unfold nint in *; pose proof (N i ltac:(lia)); pose proof (N (i + 1)%nat ltac:(lia)); split; [destruct H2; [now left|right; lra]|destruct H3; [now left|right; lra]]).
Qed.
Theorem ctor_iff (t : list R) cs b : (exists p, ppoly_ t cs b = Ok p) <-> (1 < length t)%nat /\ length cs = (length t - 1)%nat.
Proof.
  unfold ppoly_. destruct (Nat.ltb_spec 1 (length t)); simpl; [|split; [intros [? H']; discriminate|lia]]. destruct (Nat.eqb_spec (length cs) (length t - 1)); simpl; split; eauto; try lia. intros [? H']; discriminate.
Qed.

(** ** C52 *)
Lemma piece_unique p m i r f g : PpOk p m -> (i < nint p)%nat -> Piece p i r f -> Piece p i r g -> forall t, f t = g t.
Proof.
  intros HP Hi [Hf Vf] [Hg Vg]. pose proof (width_pos p m i HP Hi) as Hw. destruct HP as (L & A & Hb & Hd & _).
  apply (poly_unique (nnodes p) f g (map (fun s => bound p i + s * width p i) (b_tau (pp_b p))) Hf Hg).
  - apply FinFun.Injective_map_NoDup; [|exact Hd]. intros x y E. apply Rplus_eq_reg_l, Rmult_eq_reg_r in E; [exact E|lra].
  - now rewrite map_length.
  - intros a Ha. apply in_map_iff in Ha. destruct Ha as (s & <- & Hs). apply node_in in Hs. destruct Hs as (j & Hj & <-). rewrite Vf, Vg by exact Hj. reflexivity.
Qed.
Theorem derivative_spec p m : PpOk p m -> exists q, pp_derivative p = Ok q /\ pp_t q = pp_t p /\ pp_b q = pp_b p /\ PpOk q m /\
  forall i r f g, (i < nint p)%nat -> Piece p i r f -> (forall t, is_derive f t (g t)) -> Piece q i r g.
Proof.
  intros HP. pose proof HP as (L & A & Hb & Hd & Hc & Hm). unfold pp_derivative.
  destruct (differentiation_matrix _ _ Hb Hd) as (Dr & Dc & DE & _).
  set (F := fun ic : nat * mat R => let* d := mdot (snd ic) (mtr (b_D (pp_b p))) in Ok (mdivs d (vget (pp_t p) (fst ic + 1) - vget (pp_t p) (fst ic))%num)).
  assert (EM : exists cs, rmapM F (combine (seq 0 (length (pp_c p))) (pp_c p)) = Ok cs /\ length cs = length (pp_c p) /\ forall i, (i < nint p)%nat -> F (i, coef p i) = Ok (nth i cs (Mat 0 0 (fun _ _ => 0)))).
  { destruct (rmapM_Forall2 F (fun ic c => F ic = Ok c) (combine (seq 0 (length (pp_c p))) (pp_c p))) as (cs & E & H).
    - intros [i c] Hin. assert (Hi : (i < nint p)%nat /\ c = coef p i).
      { apply (In_nth _ _ (0%nat, Mat 0 0 (fun _ _ => 0))) in Hin. destruct Hin as (k & Hk & E). rewrite combine_length, seq_length, Nat.min_id in Hk. rewrite combine_nth, seq_nth in E by (rewrite ?seq_length; auto). injection E as <- <-. split; [simpl; lia|reflexivity]. }
      destruct Hi as [Hi ->]. unfold F. cbn [fst snd]. unfold mdot. cbn [mtr nr nc]. rewrite Dc. destruct (Hm i Hi) as [_ ->]. unfold nnodes. rewrite Nat.eqb_refl. cbn [rbind]. eauto.
    - exists cs. split; [exact E|]. pose proof (Forall2_len _ _ _ H) as HL. rewrite combine_length, seq_length, Nat.min_id in HL. split; [auto|]. intros i Hi.
      pose proof (Forall2_nth' _ _ _ (0%nat, Mat 0 0 (fun _ _ => 0)) (Mat 0 0 (fun _ _ => 0)) i H) as K. rewrite combine_length, seq_length, Nat.min_id, combine_nth, seq_nth in K by (rewrite ?seq_length; lia). apply K. lia. }
  destruct EM as (cs & Ecs & Lcs & Hcs). rewrite Ecs. cbn [rbind]. unfold ppoly_. replace (1 <? length (pp_t p))%nat with true by (symmetry; apply Nat.ltb_lt; lia).
  replace (length cs =? length (pp_t p) - 1)%nat with true by (symmetry; apply Nat.eqb_eq; unfold nint in Hc; lia). cbn [rassert rbind]. eexists. split; [reflexivity|]. cbn [pp_t pp_b].
  split; [reflexivity|]. split; [reflexivity|]. set (q := PPoly (pp_t p) cs (pp_b p)).
  assert (CQ : forall i, (i < nint p)%nat -> nr (coef q i) = m /\ nc (coef q i) = nnodes p /\ forall r j, at_m (coef q i) r j = Sum (nnodes p) (fun k => at_m (coef p i) r k * at_m (b_D (pp_b p)) j k) / width p i).
  { intros i Hi. pose proof (Hcs i Hi) as E. unfold F in E. cbn [fst snd] in E. unfold mdot in E. cbn [mtr nr nc at_m] in E. rewrite Dc in E. destruct (Hm i Hi) as [C1 C2]. rewrite C2 in E. unfold nnodes in E. rewrite Nat.eqb_refl in E. cbn [rbind] in E. injection E as E.
    change (nth i cs (Mat 0 0 (fun _ _ => 0))) with (coef q i) in E. rewrite <- E. cbn [mdivs nr nc at_m]. split; [exact C1|]. split; [exact Dr|]. intros r j. rewrite nsum_Sum. reflexivity. }
  split.
  - split; [exact L|]. split; [exact A|]. split; [exact Hb|]. split; [exact Hd|]. split; [unfold nint, q; cbn [pp_t pp_c]; unfold nint in Hc; lia|]. intros i Hi. destruct (CQ i Hi) as (C1 & C2 & _). auto.
  - intros i r f g Hi Hf Hg. pose proof (width_pos p m i HP Hi) as Hw. pose proof (piece_moved p m i r f HP Hi Hf) as Pm. destruct Hf as [Hf Vf]. split.
    + destruct (nnodes p) as [|n] eqn:En. { exfalso. unfold nnodes in En. destruct (b_tau (pp_b p)); [discriminate Hb|discriminate]. }
      unfold nnodes. change (pp_b q) with (pp_b p). fold (nnodes p). rewrite En. destruct (PolyLt_derive n f Hf) as (g' & Hg' & D'). apply (PolyLt_mon n); [lia|]. apply (PolyLt_ext _ g'); [|exact Hg'].
      intros t. pose proof (is_derive_unique _ _ _ (D' t)) as E1. pose proof (is_derive_unique _ _ _ (Hg t)) as E2. rewrite <- E1. exact E2.
    + intros j Hj. change (nnodes q) with (nnodes p) in Hj. change (b_tau (pp_b q)) with (b_tau (pp_b p)). change (bound q i) with (bound p i). change (width q i) with (width p i). destruct (CQ i Hi) as (_ & _ & ->).
      pose proof (DE _ j Pm Hj) as D1. assert (D2 : is_derive (fun s => f (bound p i + s * width p i)) (node (b_tau (pp_b p)) j) (width p i * g (bound p i + node (b_tau (pp_b p)) j * width p i))).
      { apply (is_derive_comp f (fun s => bound p i + s * width p i)); [apply Hg|]. evar_last; [apply (is_derive_plus (V := R_NormedModule)); [apply der_const|apply (is_derive_mult (fun s => s) (fun _ => width p i)); [apply is_derive_id|apply der_const|apply Rmult_comm]]|]. unfold plus, mult, one. simpl. unfold plus, mult. simpl. lra. }
      pose proof (eq_trans (eq_sym (is_derive_unique _ _ _ D2)) (is_derive_unique _ _ _ D1)) as E. fold (nnodes p) in E.
      apply (Rmult_eq_reg_l (width p i)); [|lra]. rewrite E. unfold Rdiv. rewrite <- Rmult_assoc, (Rmult_comm (width p i)), Rmult_assoc, Rinv_r, Rmult_1_r by lra. apply Sum_ext. intros k Hk. rewrite (Vf k Hk). ring.
Qed.
Lemma ppval_spec p m c r t i f : PpOk p m -> c = "left"%string \/ c = "right"%string -> Belongs p (is_right c) t i -> Piece p i r f -> ppval p c r t = f t.
Proof.
  intros HP Hc Hi Hf. unfold ppval. rewrite call_scalar. destruct (call_spec p m [t] c HP ltac:(discriminate) Hc) as (Y & E & _ & _ & H). rewrite E. apply (H 0%nat i r f); auto; simpl; lia.
Qed.
Theorem derivative_is_derivative p m q c r t : PpOk p m -> c = "left"%string \/ c = "right"%string -> pp_derivative p = Ok q -> ~ In t (pp_t p) ->
  is_derive (ppval p c r) t (ppval q c r t).
Proof.
  intros HP Hc Hq Ht. destruct (derivative_spec p m HP) as (q' & Eq & Tq & Bq & Pq & Dq). rewrite Hq in Eq. injection Eq as <-.
  destruct (belongs_unique p m (is_right c) t HP) as (i & Hi & _). destruct (piece_exists p m i r HP (proj1 Hi)) as [f Hf].
  assert (exists g, forall t, is_derive f t (g t)) as [g Hg].
  { destruct (PolyLt_derive (nnodes p) f (PolyLt_mon (nnodes p) (S (nnodes p)) f ltac:(lia) (proj1 Hf))) as (g & _ & Hg). now exists g. }
  rewrite (ppval_spec q m c r t i g Pq Hc).
  - apply (is_derive_ext_loc f); [|apply Hg].
    assert (LB : exists d, 0 < d /\ forall y, Rabs (y - t) < d -> Belongs p (is_right c) y i).
    { assert (N : forall k, (k < length (pp_t p))%nat -> bound p k <> t) by (intros k Hk E; apply Ht, node_in; exists k; auto).
      destruct Hi as (H1 & H2 & H3). assert (L2 : (2 <= length (pp_t p))%nat) by apply HP. unfold nint in H1. pose proof (N i ltac:(lia)) as N1. pose proof (N (i + 1)%nat ltac:(lia)) as N2.
      exists (Rmin (Rabs (bound p i - t)) (Rabs (bound p (i + 1) - t))). split; [apply Rmin_glb_lt; apply Rabs_pos_lt; lra|]. intros y Hy.
      assert (Y1 : Rabs (y - t) < Rabs (bound p i - t)) by (eapply Rlt_le_trans; [exact Hy|apply Rmin_l]). assert (Y2 : Rabs (y - t) < Rabs (bound p (i + 1) - t)) by (eapply Rlt_le_trans; [exact Hy|apply Rmin_r]).
      split; [exact H1|]. split.
      - destruct H2 as [H2|H2]; [now left|right]. assert (bound p i < t) by (destruct (is_right c); lra). rewrite (Rabs_left (bound p i - t)) in Y1 by lra. apply Rabs_def2 in Y1. destruct (is_right c); lra.
      - destruct H3 as [H3|H3]; [now left|right]. assert (t < bound p (i + 1)) by (destruct (is_right c); lra). rewrite (Rabs_pos_eq (bound p (i + 1) - t)) in Y2 by lra. apply Rabs_def2 in Y2. destruct (is_right c); lra. }
    destruct LB as (d & Hd & HB). exists (mkposreal d Hd). intros y Hy. symmetry. apply (ppval_spec p m c r y i f HP Hc); [|exact Hf]. apply HB. exact Hy.
  - unfold Belongs, nint, bound. rewrite Tq. exact Hi.
  - apply (Dq i r f g (proj1 Hi) Hf Hg).
Qed.
