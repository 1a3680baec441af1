(** The solver object: the inverse factor given by the caller, and the sparse variant. *)
From Coq Require Import Lia Lra List FunctionalExtensionality.
From Verif Require Import Vec SpecBezier ModelData ModelSolver ModelQp ModelQpObj SpecQp SpecQpObj ProofBezier ProofQp ProofQp2 ProofQp3 ProofQp4 ProofQp5 ProofQp6 ProofQp7 ProofQpObj ProofQpObj2 ProofQpObj3.
Open Scope R_scope.

(** the invariant at the start, from a factor J of the inverse Hessian and the minimiser x *)
Lemma start_inv q st x J c tol : inverts (e_n q) (e_H q) J -> (forall i, (i < e_n q)%nat -> hmul q x i + e_g q i = 0) ->
  objective q x = c -> inv q 0 0 0 (Qst x (q_u st) (q_A st) 0 (fun _ _ => 0) J 1 c 0 (q_s st) (q_ss st) (q_ip st)
    (fun i => Z.of_nat i) (q_ex st) (q_xo st) (q_uo st) (q_Ao st) tol).
Proof.
  intros HJ HX HC. constructor; qst_cbn; try lia; try (intros; lia).
  - exact HJ.
  - split; [|split]; intros; first [lia|reflexivity].
  - lra.
  - left. reflexivity.
  - intros i Hi. rewrite HX by exact Hi. cbn [sumf]. ring.
  - symmetry. exact HC.
Qed.
Lemma dot_neg n g x : dot n (fun i => - g i) x = - dot n g x.
Proof. unfold dot. rewrite <- sumf_opp. apply sumf_ext. intros; ring. Qed.
Lemma objective_at q x : (forall i, (i < e_n q)%nat -> hmul q x i + e_g q i = 0) -> objective q x = 1 / 2 * dot (e_n q) (e_g q) x.
Proof.
  intros H. unfold objective. rewrite (dot_ext _ x x (hmul q x) (fun i => - e_g q i)) by (auto; intros i Hi; specialize (H i Hi); lra).
  rewrite (dot_sym _ x), dot_neg. field.
Qed.

(** * The given inverse *)
Section Given.
  Variables (p : eqp) (J : rmat) (k0 : nat).
  Hypothesis HF : inverse_factor p J.
  Let x0 : rvec := fun i => sumf (e_n p) (fun c => J i c * sumf (e_n p) (fun k => J k c * e_g p k)).
  Lemma given_min i : (i < e_n p)%nat -> hmul p x0 i = e_g p i.
  Proof. intros Hi. unfold hmul, dot, x0. rewrite <- (hjd (e_n p) (e_H p) J (e_g p) i HF Hi). reflexivity. Qed.
  Lemma given_inv st : q_J st = J -> inv (limited k0 (flipped p)) 0 0 0 (addf (- dot (e_n p) (e_g p) x0) (start_given p st)).
  Proof.
    intros EJ. unfold start_given, start, addf. qst_cbn. rewrite EJ. fold x0. apply start_inv.
    - exact HF.
    - intros i Hi. pose proof (given_min i Hi) as G. change (hmul p x0 i + - e_g p i = 0). lra.
    - rewrite objective_at.
      + change (1 / 2 * dot (e_n p) (fun i => - e_g p i) x0 = 1 / 2 * dot (e_n p) (e_g p) x0 + - dot (e_n p) (e_g p) x0). rewrite dot_neg. field.
      + intros i Hi. pose proof (given_min i Hi) as G. change (hmul p x0 i + - e_g p i = 0). lra.
  Qed.
  Lemma given_limit st k s st' : convex p -> well_scaled p -> (e_E p <= e_n p)%nat -> q_J st = J -> (subsets (e_I p) (e_n p - e_E p) < k0)%nat ->
    let q := limited k0 p in steps q k (add_equalities q (e_E q) 0 (start_given p st)) = Ok (Done s st') -> s <> st_MAX_ITER.
  Proof.
    intros C W E EJ HN q. apply (run_as_limit q (limited k0 (flipped p)) (dot (e_n p) (e_g p) x0) (start_given p st)); try assumption; try reflexivity.
    apply given_inv. exact EJ.
  Qed.
  Lemma given_run st : convex p -> well_scaled p -> (e_E p <= e_n p)%nat -> q_J st = J ->
    let q := limited k0 p in
    exists k s st', steps q k (add_equalities q (e_E q) 0 (start_given p st)) = Ok (Done s (addf (dot (e_n p) (e_g p) x0) st')) /\
      ends (limited k0 (flipped p)) (INR (e_I p) * eps52 * trace (e_n p) (e_H p) * trace (e_n p) J * 100) s st'.
  Proof.
    intros C W E EJ q. replace (INR (e_I p) * eps52 * trace (e_n p) (e_H p) * trace (e_n p) J * 100) with (q_tol (start_given p st)) by (cbn [start_given start q_tol]; rewrite EJ; reflexivity).
    apply (run_as q (limited k0 (flipped p)) (dot (e_n p) (e_g p) x0) (start_given p st)).
    - reflexivity.
    - exact (proj1 C).
    - exact W.
    - exact E.
    - reflexivity.
    - apply given_inv. exact EJ.
    - reflexivity.
  Qed.
End Given.

(** * The sparse variant *)
Section Sparse.
  Variables (p : eqp) (c : rvec) (k0 : nat).
  Let n := e_n p.
  Lemma eye_mul v i : (i < n)%nat -> hmul (nearest p c) v i = v i.
  Proof. intros Hi. unfold hmul, dot. cbn [nearest recost e_n e_H]. exact (delta_sum n i v Hi). Qed.
  Lemma eye_inverts : inverts n eye eye.
  Proof.
    intros i l Hi Hl. rewrite (sumf_ext n _ (fun j => delta i j * gram n eye j l)) by reflexivity. rewrite delta_sum by exact Hi.
    unfold gram. rewrite (sumf_ext n _ (fun k => delta i k * eye l k)) by reflexivity. rewrite delta_sum by exact Hi. unfold eye, delta. rewrite Nat.eqb_sym. reflexivity.
  Qed.
  Lemma nearest_sym : symmetric (nearest p c).
  Proof. intros i j _ _. cbn [nearest recost e_H]. unfold eye. rewrite Nat.eqb_sym. reflexivity. Qed.
  Lemma nearest_obj y : objective (nearest p c) y = 1 / 2 * dist2 n y c - 1 / 2 * dot n c c.
  Proof.
    unfold objective. change (e_n (nearest p c)) with n. rewrite (dot_ext n y y _ y) by (auto; intros; apply eye_mul; assumption).
    change (e_g (nearest p c)) with (fun i => - c i). rewrite dot_neg. unfold dist2.
    rewrite (sumf_ext n (fun i => (y i - c i) * (y i - c i)) (fun i => (y i * y i - 2 * (c i * y i)) + c i * c i)) by (intros; ring).
    rewrite sumf_plus, sumf_minus, sumf_scal. unfold dot. field.
  Qed.
  Lemma nearest_convex : convex (nearest p c).
  Proof.
    split; [exact nearest_sym|]. intros v (i & Hi & Hv). change (e_n (nearest p c)) with n in *.
    rewrite (dot_ext n v v _ v) by (auto; intros; apply eye_mul; assumption). unfold dot.
    apply Rlt_le_trans with (v i * v i); [exact (Rsqr_pos_lt _ Hv)|].
    assert (S1 : sumf n (fun j => if Nat.eqb j i then v i * v i else 0) = v i * v i).
    2: { rewrite <- S1. apply sumf_le. intros j _. cbv beta. destruct (Nat.eqb_spec j i) as [->|]; [lra|apply Rle_0_sqr]. }
    rewrite (sumf_one n _ i Hi); [now rewrite Nat.eqb_refl|]. intros j _ Hne. now rewrite (proj2 (Nat.eqb_neq _ _) Hne).
  Qed.
  Lemma sparse_inv st : inv (limited k0 (nearest p c)) 0 0 0 (addf (- (1 / 2 * dot n (e_g p) c + 1 / 2 * dot n c c)) (start p st c eye)).
  Proof.
    set (b := 1 / 2 * dot n (e_g p) c + 1 / 2 * dot n c c). unfold start, addf. qst_cbn. apply start_inv.
    - exact eye_inverts.
    - intros i Hi. change (hmul (nearest p c) c i + - c i = 0). rewrite eye_mul by exact Hi. ring.
    - change (objective (nearest p c) c = 1 / 2 * dot n (e_g p) c + - b). rewrite nearest_obj. unfold b.
      assert (Z : dist2 n c c = 0) by (apply sumf_zero; intros; ring). rewrite Z. field.
  Qed.
  Lemma sparse_limit st k s st' : well_scaled (nearest p c) -> (e_E p <= n)%nat -> (subsets (e_I p) (n - e_E p) < k0)%nat ->
    let q := limited k0 p in steps q k (add_equalities q (e_E q) 0 (start p st c eye)) = Ok (Done s st') -> s <> st_MAX_ITER.
  Proof.
    intros W E HN q. apply (run_as_limit q (limited k0 (nearest p c)) (1 / 2 * dot n (e_g p) c + 1 / 2 * dot n c c) (start p st c eye)); try assumption; try reflexivity.
    - exact nearest_convex.
    - apply sparse_inv.
  Qed.
  Lemma sparse_run st L : well_scaled (nearest p c) -> (e_E p <= n)%nat ->
    c = (fun i => - chol_solve n L (e_g p) i) ->
    let q := limited k0 p in let b := 1 / 2 * dot n (e_g p) c + 1 / 2 * dot n c c in
    exists k s st', steps q k (add_equalities q (e_E q) 0 (start p st c eye)) = Ok (Done s (addf b st')) /\
      ends (limited k0 (nearest p c)) (INR (e_I p) * eps52 * trace n (e_H p) * INR n * 100) s st'.
  Proof.
    intros W E EC q b. destruct (run_as q (limited k0 (nearest p c)) b (start p st c eye)) as (k & s & st' & E1 & F).
    - reflexivity.
    - exact nearest_sym.
    - exact W.
    - exact E.
    - reflexivity.
    - apply sparse_inv.
    - reflexivity.
    - exists k, s, st'. split; [exact E1|]. replace (q_tol (start p st c eye)) with (INR (e_I p) * eps52 * trace n (e_H p) * INR n * 100) in F; [exact F|].
      cbn [start q_tol]. fold n. do 2 f_equal. unfold trace. rewrite (sumf_ext n (fun i => eye i i) (fun _ => 1)).
      + clear. induction n as [|m IH]; [reflexivity|]. cbn [sumf]. rewrite <- IH, S_INR. ring.
      + intros i _. unfold eye. rewrite Nat.eqb_refl. reflexivity.
  Qed.
End Sparse.
