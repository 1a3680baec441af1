(** Problem data and flags. *)
From Verif Require Import Vec.
Open Scope R_scope.

(** /repo/include/hpp/bezier-com-traj/flags.hh:14-42, enum values as integers. *)
Definition ACCELERATION : Z := 1.
Definition DISTANCE_TRAVELED : Z := 2.
Definition TARGET_END_VELOCITY : Z := 4.
Definition UNKNOWN_COST : Z := 8.

Definition INIT_POS : Z := 0x1.
Definition INIT_VEL : Z := 0x2.
Definition INIT_ACC : Z := 0x4.
Definition END_POS : Z := 0x8.
Definition END_VEL : Z := 0x10.
Definition END_ACC : Z := 0x20.
Definition INIT_JERK : Z := 0x40.
Definition END_JERK : Z := 0x80.
Definition ONE_FREE_VAR : Z := 0x0.
Definition TWO_FREE_VAR : Z := 0x100.
Definition THREE_FREE_VAR : Z := 0x200.
Definition FOUR_FREE_VAR : Z := 0x400.
Definition FIVE_FREE_VAR : Z := 0x800.

Definition DOUBLE_DESCRIPTION : Z := 1.
Definition FORCE : Z := 2.

(** flags.hh:48-56, operator| and operator& on ConstraintFlag. *)
Definition fl_or (a b : Z) : Z := Z.lor a b.
(** truth value of [flag & X] *)
Definition fl_has (f b : Z) : bool := negb (Z.eqb (Z.land f b) 0).

(** A row of 6 numbers / a 6-vector, as head<3> and tail<3>. *)
Definition v6 : Type := (vec3 * vec3)%type.

(** What the code asks of centroidal_dynamics::Equilibrium (external):
    the rows (H,h) of getPolytopeInequalities, m_mass, m_gravity and the
    columns of m_G_centr.  Simplification: getPolytopeInequalities is a pure
    query which returns as many offsets as rows, and always the same ones. *)
Record cphase := CPhase {
  cp_poly : list (v6 * R);
  cp_mass : R;
  cp_gravity : vec3;
  cp_G : list v6
}.

(** /repo/include/hpp/bezier-com-traj/data.hh:27-55, ContactData as a value.
    [cd_phase = None] is the null pointer.  (Sharing of the pointer is the
    subject of ModelHeap.v.)  Kin_ and Ang_ (MatrixX3) are lists of rows. *)
Record contact := Contact {
  cd_phase : option cphase;
  cd_Kin : list vec3;
  cd_kin : list R;
  cd_Ang : list vec3;
  cd_ang : list R
}.

(** data.hh:62-81, Constraints. *)
Record constraints := Constraints {
  k_flag : Z;
  k_constraintAcceleration : bool;
  k_maxAcceleration : R;
  k_reduce_h : R
}.

(** data.hh:91-113, ProblemData. *)
Record problem := Problem {
  contacts : list contact;
  c0 : vec3; dc0 : vec3; ddc0 : vec3; j0 : vec3;
  c1 : vec3; dc1 : vec3; ddc1 : vec3; j1 : vec3;
  l0 : vec3;
  useAngularMomentum : bool;
  constr : constraints;
  costFunction : Z;
  representation : Z
}.

(** definitions.hh:62, coefs_t: a point that is an affine function of the free
    variable, [first * x + second]. *)
Definition coefs : Type := (R * vec3)%type.

(** waypoint_t with a 6x3 matrix and a 6-vector (waypoint6_t likewise), kept
    as its four blocks: rows 0-2 and 3-5 of [first], head<3> and tail<3> of
    [second]. *)
Record wp6 : Set := W6 { w_top : mat3; w_bot : mat3; w_head : vec3; w_tail : vec3 }.

(** waypoint_t with a 3x(3k) matrix and a 3-vector: the k blocks of 3 columns. *)
Record wpn : Set := Wn { wn_blocks : list mat3; wn_pt : vec3 }.

(** dereference of a pointer *)
Definition deref {A} (p : option A) : outcome A :=
  match p with Some a => Ok a | None => UB end.

(** [pData.contacts_.front().contactPhase_->m_gravity] *)
Definition front_gravity (pData : problem) : outcome vec3 :=
  c <- get (contacts pData) 0 ;;
  ph <- deref (cd_phase c) ;;
  Ok (cp_gravity ph).
