(** C29, C30, C31 and C57: frame rotations, body orientation and loading kernels. *)
From Coq Require Import Ascii String List NArith ZArith QArith Qreals Bool Lia Reals Lra.
From Verif Require Import Base Text DecFloat Sort Fnum Omm_Model Tk_Model.
From Verif Require Lsk_Model Sclk_Model Fk_Model Fk_Proofs Pck_Model Pck_Proofs Ik_Model Ik_Proofs Tk_Props.
From Verif Require Import Mat3 Ctx_Model Ctx_Proofs Ctx_Load.
Import ListNotations.
Import Fk_Model(frame_spec, f_id, f_name, f_class, f_class_id, f_tk, Frame, Inertial, Pck, Ck, TwoVector, Dynamic).
Import Pck_Model(orientation, pole_ra, pole_dec, pm).
Local Open Scope string_scope.
Local Open Scope Z_scope.
Local Open Scope list_scope.

Definition all_orthonormal (reg : list frame_spec) : Prop := forall f values name, In f reg -> f_tk f = Some (values, name) -> orthonormal (mat_of values).

(** ** C29 *)
(** From a frame to itself the rotation is the identity, and there is no other answer. *)
Theorem C29_identity reg pcks t a m : rotates reg pcks t a a m <-> m = identity.
Proof. rewrite rotates_spec. split; [intros [(_ & E)|(N & _)]; [exact E|contradiction]|auto]. Qed.
Theorem C29_compose reg pcks t a b c m1 m2 : all_orthonormal reg ->
  rotates reg pcks t a b m1 -> rotates reg pcks t b c m2 -> rotates reg pcks t a c (mul m2 m1).
Proof. exact (rotates_compose reg pcks t a b c m1 m2). Qed.
Theorem C29_inverse reg pcks t a b m : rotates reg pcks t a b m -> rotates reg pcks t b a (transpose m).
Proof. exact (rotates_back reg pcks t a b m). Qed.
Theorem C29_orthonormal reg pcks t a b m : all_orthonormal reg -> rotates reg pcks t a b m -> orthonormal m.
Proof. exact (rotates_orthonormal reg pcks t a b m). Qed.
Theorem C29_lengths reg pcks t a b m u v : all_orthonormal reg -> rotates reg pcks t a b m -> dot3 (apply m u) (apply m v) = dot3 u v.
Proof. intros H R. apply orthonormal_dot. eapply rotates_orthonormal; eauto. Qed.
Theorem C29_no_reflection reg pcks t a b m : (forall f values name, In f reg -> f_tk f = Some (values, name) -> det (mat_of values) = 1%R) ->
  rotates reg pcks t a b m -> det m = 1%R.
Proof. exact (rotates_det reg pcks t a b m). Qed.
Theorem C29_one_answer reg pcks t a b m m' : rotates reg pcks t a b m -> rotates reg pcks t a b m' -> m = m'.
Proof. exact (rotates_fun reg pcks t a b m m'). Qed.
(** The rotation to J2000 is the product of the matrices along the chain of definitions, the newest definition of a number
    or name counting. *)
Theorem C29_chain reg pcks t id m : (exists k, frame_to_j2000 k reg pcks id t = Some (Ok m)) <-> placed reg pcks t id m.
Proof. exact (placed_spec reg pcks t id m). Qed.
(** Resolution ends exactly when following the definitions never comes back to a frame. *)
Theorem C29_ends reg pcks t id : (exists k o, frame_to_j2000 k reg pcks id t = Some o) <-> ~ loops reg id.
Proof. exact (ends_any reg pcks t id). Qed.
(** It then takes no more steps than there are frames. *)
Theorem C29_depth reg pcks t id k o : frame_to_j2000 k reg pcks id t = Some o -> frame_to_j2000 (S (List.length reg)) reg pcks id t = Some o.
Proof.
  intros H. assert (L : ~ loops reg id) by (apply (ends_any reg pcks t); eauto). apply (ends_iff reg pcks t) in L as (o' & E).
  now rewrite (same reg pcks t _ _ _ _ _ H E).
Qed.
(** Frames loaded later hide earlier ones of the same number. *)
Theorem C29_newest reg fs id f : latest fs (fun g => f_id g = id) f -> reg_by_id (reg ++ fs) id = Ok f.
Proof. intros (a & b & -> & E & F). apply reg_by_id_spec. exists (reg ++ a), b. split; [now rewrite app_assoc|]. auto. Qed.

Definition lines (l : list string) : str := flat_map (fun s => lit s ++ [10%N]) l.
(** A lander on a body whose frame is turned a quarter about z, and a camera on the lander. *)
Definition turn : list fnum := [Fin 0; Fin 1; Fin 0; Fin (-1); Fin 0; Fin 0; Fin 0; Fin 0; Fin 1].
Definition sample_reg : list frame_spec :=
  [j2000; Frame (-7) (lit "LANDER") TwoVector (-7) (-7) (Some (turn, lit "J2000")); Frame (-8) (lit "CAMERA") TwoVector (-8) (-7) (Some (turn, lit "LANDER"))].
Lemma turn_orthonormal : orthonormal (mat_of turn).
Proof. unfold orthonormal, mat_of, turn, real. cbn [nth]. apply mat_eq; cbn; unfold Q2R; cbn; field. Qed.
Example C29_case t : all_orthonormal sample_reg /\ (exists m, rotates sample_reg [] t (-8) (-7) m /\ m = mat_of turn) /\
  (exists m, rotates sample_reg [] t (-8) 1 m /\ apply m (1, 0, 0)%R = (-1, 0, 0)%R) /\ ~ loops sample_reg (-8).
Proof.
  assert (P7 : placed sample_reg [] t (-7) (mul identity (mat_of turn))).
  { eapply placed_relative with (b := 1) (r := j2000); [lia| | | |reflexivity|constructor].
    - apply reg_by_id_spec. reflexivity.
    - reflexivity.
    - apply reg_by_name_spec. reflexivity. }
  assert (P8 : placed sample_reg [] t (-8) (mul (mul identity (mat_of turn)) (mat_of turn))).
  { eapply placed_relative with (b := -7) (r := Frame (-7) (lit "LANDER") TwoVector (-7) (-7) (Some (turn, lit "J2000"))); [lia| | | |reflexivity|exact P7].
    - apply reg_by_id_spec. reflexivity.
    - reflexivity.
    - apply reg_by_name_spec. reflexivity. }
  split; [|split; [|split]].
  - intros f values name [<-|[<-|[<-|[]]]] E; cbn in E; try discriminate; injection E as <- <-; exact turn_orthonormal.
  - eexists. split; [apply rotates_spec; right; split; [lia|]; eauto|]. rewrite mul_1_l, mul_assoc. rewrite turn_orthonormal. apply mul_1_l.
  - eexists. split; [apply rotates_spec; right; split; [lia|]; exists (mul (mul identity (mat_of turn)) (mat_of turn)), identity; split; [exact P8|split; [constructor|reflexivity]]|].
    unfold mat_of, turn, real. cbn. unfold Q2R; cbn. f_equal; [f_equal|]; field.
  - apply (ends_any sample_reg [] t). apply placed_spec in P8 as (k & E). eauto.
Qed.
(** A number nobody defined still rotates to itself. *)
Theorem C29_unknown_refuted : exists reg pcks t id, reg_by_id reg id = Err (UnknownFrameId id) /\ rotates reg pcks t id id identity.
Proof. exists [j2000], [], 0%R, 42. split; [reflexivity|]. apply C29_identity. reflexivity. Qed.
(** A kernel that defines a frame relative to itself is loaded, and asking for the frame never ends. *)
Definition self_text : str := lines ["\begindata"; "FRAME_5_NAME = 'SELF'"; "FRAME_5_CLASS = 4"; "FRAME_5_CLASS_ID = 5"; "FRAME_5_CENTER = 5";
  "TKFRAME_5_SPEC = 'MATRIX'"; "TKFRAME_5_RELATIVE = 'SELF'"; "TKFRAME_5_MATRIX = ( 1 0 0 0 1 0 0 0 1 )"].
Theorem C29_self_refuted : exists c : ctx unit unit, load_text_kernel empty (lit "a") self_text = Some (c, Ok tt) /\
  forall pcks t k, rotation_naif k (registry c) pcks 5 1 t = None.
Proof.
  eexists. split; [vm_compute; reflexivity|]. intros pcks t k. unfold rotation_naif. cbn [Z.eqb Pos.eqb registry]. rewrite loop_forever; [reflexivity|].
  exists 5. split; [now left|]. constructor. apply next_spec. vm_compute. reflexivity.
Qed.
(** A frame that is named J2000 takes the place of the inertial one, and everything defined relative to it. *)
Theorem C29_shadow_refuted : exists reg f, In j2000 reg /\ reg_by_name reg (lit "J2000") = Ok f /\ f_id f <> 1.
Proof. exists [j2000; Frame 5 (lit "J2000") Pck 399 399 None]. eexists. split; [now left|]. split; [reflexivity|]. cbn. lia. Qed.

(** ** C30 *)
Theorem C30_rotation a d w : orthonormal (body_matrix a d w) /\ det (body_matrix a d w) = 1%R.
Proof. exact (body_matrix_proper a d w). Qed.
(** Where the pole really goes. *)
Theorem C30_pole a d w : apply (body_matrix a d w) (0, 0, 1)%R = (cos d * cos a, - (cos d * sin a), sin d)%R.
Proof. exact (body_pole a d w). Qed.
(** It is the published pole exactly when that has no second component. *)
Theorem C30_pole_iff a d w : apply (body_matrix a d w) (0, 0, 1)%R = pole a d <-> (cos d * sin a)%R = 0%R.
Proof. rewrite body_pole. unfold pole. split; [intros E; injection E as E; lra|]. intros E. f_equal. f_equal. lra. Qed.
(** The published rotation does send the pole where it should, and it is the one computed only for a pole along z with a
    right ascension of plus or minus 90 degrees. *)
Theorem C30_published a d w : apply (published a d w) (0, 0, 1)%R = pole a d.
Proof. exact (published_pole a d w). Qed.
Theorem C30_exact_iff a d w : body_matrix a d w = published a d w <-> (cos a = 0 /\ cos d = 0)%R.
Proof. exact (body_exact a d w). Qed.
(** For a pole along z at right ascension 0 (the Earth's) longitudes are half a turn off. *)
Theorem C30_half_turn_refuted w : apply (body_matrix 0 (PI / 2) w) (1, 0, 0)%R = (sin w, - cos w, 0)%R /\ apply (published 0 (PI / 2) w) (1, 0, 0)%R = (- sin w, cos w, 0)%R.
Proof.
  rewrite body_entries, published_entries, sin_0, cos_0, sin_PI2, cos_PI2. cbn. split; (f_equal; [f_equal|]; ring).
Qed.
Theorem C30_pole_refuted : exists a d, forall w, apply (body_matrix a d w) (0, 0, 1)%R <> pole a d.
Proof. exists (PI / 2)%R, 0%R. intros w E. apply C30_pole_iff in E. rewrite cos_0, sin_PI2 in E. lra. Qed.
(** The answer comes from the newest kernel that names the body; a body without a pole or a prime meridian panics. *)
Theorem C30_newest pcks id t : match first_body (rev pcks) id with
  | Some o => exists p, latest pcks (fun q => Pck_Model.body q id <> None) p /\ Pck_Model.body p id = Some o
  | None => iau_body_rotation pcks id t = Err (NoPck id)
  end.
Proof.
  pose proof (first_body_spec pcks id) as H. unfold iau_body_rotation. destruct (first_body (rev pcks) id); [exact H|reflexivity].
Qed.
(** The pole moves by its rate per Julian century and the meridian by its rate per day, from their values at the epoch; all in degrees. *)
Theorem C30_rates pcks p id n a0 a1 al d0 d1 dl w0 w1 wl o : latest pcks (fun q => Pck_Model.body q id <> None) p -> Pck_Model.body p id = Some o ->
  pole_ra o = Fin a0 :: Fin a1 :: al -> pole_dec o = Fin d0 :: Fin d1 :: dl -> pm o = Fin w0 :: Fin w1 :: wl ->
  iau_body_rotation pcks id (n * 86400) = Ok (body_matrix ((Q2R a0 + Q2R a1 * (n / 36525)) * PI / 180) ((Q2R d0 + Q2R d1 * (n / 36525)) * PI / 180) ((Q2R w0 + Q2R w1 * n) * PI / 180))%R.
Proof.
  intros L B Ea Ed Ew. unfold iau_body_rotation. pose proof (first_body_spec pcks id) as F. destruct (first_body (rev pcks) id) as [o'|].
  - destruct F as (q & Lq & Bq). assert (q = p) by (eapply latest_fun; eauto). subst q. assert (o' = o) by congruence. subst o'.
    unfold rotation_to_j2000. rewrite Ea, Ed, Ew. cbn [linear nth real]. unfold rad. f_equal.
    replace (n * 86400 / (36525 * 86400))%R with (n / 36525)%R by (field; lra). replace (n * 86400 / 86400)%R with n by (field; lra). f_equal; unfold Rdiv; ring.
  - apply latest_in in L as (I & Q). specialize (F p I). contradiction.
Qed.
Theorem C30_panic_iff pcks id t : iau_body_rotation pcks id t = Panic <-> exists p o, latest pcks (fun q => Pck_Model.body q id <> None) p /\
  Pck_Model.body p id = Some o /\ (pole_ra o = [] \/ pole_dec o = [] \/ pm o = []).
Proof.
  rewrite iau_panic. pose proof (first_body_spec pcks id) as H. destruct (first_body (rev pcks) id) as [o|].
  - destruct H as (p & L & B). split.
    + intros (o' & E & X). injection E as <-. eauto.
    + intros (p' & o' & L' & B' & X). rewrite (latest_fun _ _ _ _ L' L) in B'. exists o. split; [reflexivity|]. congruence.
  - split; [intros (o & E & _); discriminate|]. intros (p & o & L & B & _). apply latest_in in L as (I & _). specialize (H p I). congruence.
Qed.
Definition radii_text : str := lines ["\begindata"; "BODY399_RADII = ( 6378.1366 6378.1366 6356.7519 )"].
Theorem C30_panic_refuted : exists c : ctx unit unit, load_text_kernel empty (lit "a") radii_text = Some (c, Ok tt) /\
  forall t, iau_body_rotation (map snd (pck c)) 399 t = Panic.
Proof.
  eexists. split; [vm_compute; reflexivity|]. intros t. apply C30_panic_iff. eexists. eexists. split; [exists [], []; split; [reflexivity|]; split; [|constructor]|].
  - cbn. discriminate.
  - cbn. split; [reflexivity|]. left. reflexivity.
Qed.
Example C30_case : (cos 0 * sin (PI / 2))%R <> 0%R /\ (cos (PI / 2) * sin 0)%R = 0%R.
Proof. rewrite cos_0, sin_PI2, cos_PI2, sin_0. split; lra. Qed.

(** ** C57 and C31 *)
Section Load.
Context {S C : Type}.
Lemma outcomes (c : ctx S C) alias d c' r : load_table c alias d = (c', r) -> outcome_of c alias d c' r.
Proof.
  intros E. pose proof (load_outcome Fk_Proofs.frames_np Pck_Proofs.bodies_np Ik_Proofs.instruments_np c alias d) as H. rewrite E in H. exact H.
Qed.
(** A text kernel that is accepted is added to every role its variables call for, and to no other. *)
Theorem C57_loaded (c c' : ctx S C) alias d : load_table c alias d = (c', Ok tt) ->
  added c alias d (has_lsk d) (has_fk d) (has_pck d) (has_sclk d) (has_ik d) c'.
Proof. exact (outcomes c alias d c' (Ok tt)). Qed.
(** It is accepted exactly when every role it calls for can be read. *)
Theorem C57_accepted (c : ctx S C) alias d : (exists c', load_table c alias d = (c', Ok tt)) <->
  (has_lsk d = true -> exists a, Lsk_Model.from_table d = Ok a) /\ (has_fk d = true -> exists a, Fk_Model.from_table d = Ok a) /\
  (has_pck d = true -> exists a, Pck_Model.from_table d = Ok a) /\ (has_sclk d = true -> exists a, Sclk_Model.from_table d = Ok a) /\
  (has_ik d = true -> exists a, Ik_Model.from_table d = Ok a).
Proof.
  split.
  - intros (c' & E). apply outcomes in E. destruct E as (_ & _ & L & F & P & Sc & I).
    split; [intros H; rewrite H in L; destruct L as (a & ? & _); eauto|]. split; [intros H; rewrite H in F; destruct F as (a & ? & _); eauto|].
    split; [intros H; rewrite H in P; destruct P as (a & ? & _); eauto|]. split; [intros H; rewrite H in Sc; destruct Sc as (a & ? & _); eauto|].
    intros H; rewrite H in I; destruct I as (a & ? & _); eauto.
  - intros (L & F & P & Sc & I). destruct (load_table c alias d) as (c', r) eqn:E. apply outcomes in E. destruct r as [[]|e|]; [eauto| |].
    + exfalso. destruct e; cbn in E; try contradiction; destruct E as (H & X & _);
        [destruct (L H)|destruct (F H)|destruct (P H)|destruct (Sc H)|destruct (I H)]; congruence.
    + exfalso. destruct E as [(H & X & _)|(H & X)]; [destruct (L H)|destruct (Sc H)]; congruence.
Qed.
(** Loading never removes anything, whatever the outcome; leap seconds alone are replaced. *)
Theorem C57_keeps (c : ctx S C) alias d : keeps c (fst (load_table c alias d)).
Proof. exact (load_keeps c alias d). Qed.
(** Text that is not a kernel changes nothing. *)
Theorem C31_syntax (c c' : ctx S C) alias text e : load_text_kernel c alias text = Some (c', Err (KText e)) -> c' = c.
Proof.
  unfold load_text_kernel. destruct (parse text) as [[d|e'|]|]; try discriminate.
  - intros E. injection E as E. apply outcomes in E. destruct E.
  - intros E. injection E as <- _. reflexivity.
Qed.
(** After an error the context is exactly what the roles before the one that failed make of it. *)
Theorem C31_error (c c' : ctx S C) alias d e : load_table c alias d = (c', Err e) ->
  match e with
  | KLsk _ => c' = c
  | KFk _ => added c alias d (has_lsk d) false false false false c'
  | KPck _ => added c alias d (has_lsk d) (has_fk d) false false false c'
  | KSclk _ => added c alias d (has_lsk d) (has_fk d) (has_pck d) false false c'
  | KIk _ => added c alias d (has_lsk d) (has_fk d) (has_pck d) (has_sclk d) false c'
  | _ => False
  end.
Proof. intros E. apply outcomes in E. destruct e; cbn in E; try contradiction; intuition. Qed.
(** A kernel of one role only that fails changes nothing. *)
Theorem C31_one_role (c c' : ctx S C) alias d e :
  (forall i j, nth i [has_lsk d; has_fk d; has_pck d; has_sclk d; has_ik d] false = true -> nth j [has_lsk d; has_fk d; has_pck d; has_sclk d; has_ik d] false = true -> i = j) ->
  load_table c alias d = (c', Err e) -> c' = c.
Proof.
  intros U E. apply outcomes in E.
  assert (A : added c alias d false false false false false c' -> c' = c).
  { destruct c, c'. unfold added. cbn. intros (-> & -> & -> & (-> & ->) & -> & -> & ->). reflexivity. }
  assert (N : forall i j, i <> j -> nth i [has_lsk d; has_fk d; has_pck d; has_sclk d; has_ik d] false = true -> nth j [has_lsk d; has_fk d; has_pck d; has_sclk d; has_ik d] false = false).
  { intros i j D Hi. destruct (nth j [has_lsk d; has_fk d; has_pck d; has_sclk d; has_ik d] false) eqn:Hj; [|reflexivity]. destruct D. now apply U. }
  destruct e; cbn in E; try contradiction; destruct E as (H & _ & E); [exact E| | | |]; apply A.
  - pose proof (N 1%nat 0%nat ltac:(discriminate) H) as E0. cbn [nth] in E0. now rewrite E0 in E.
  - pose proof (N 2%nat 0%nat ltac:(discriminate) H) as E0. pose proof (N 2%nat 1%nat ltac:(discriminate) H) as E1. cbn [nth] in E0, E1. now rewrite E0, E1 in E.
  - pose proof (N 3%nat 0%nat ltac:(discriminate) H) as E0. pose proof (N 3%nat 1%nat ltac:(discriminate) H) as E1. pose proof (N 3%nat 2%nat ltac:(discriminate) H) as E2.
    cbn [nth] in E0, E1, E2. now rewrite E0, E1, E2 in E.
  - pose proof (N 4%nat 0%nat ltac:(discriminate) H) as E0. pose proof (N 4%nat 1%nat ltac:(discriminate) H) as E1. pose proof (N 4%nat 2%nat ltac:(discriminate) H) as E2.
    pose proof (N 4%nat 3%nat ltac:(discriminate) H) as E3. cbn [nth] in E0, E1, E2, E3. now rewrite E0, E1, E2, E3 in E.
Qed.
(** A binary kernel that cannot be read, or bytes of no known kind, change nothing. *)
Theorem C31_binary utf8 read_spk read_ck (c c' : ctx S C) alias bytes e : load_bytes utf8 read_spk read_ck c alias bytes = Some (c', Err e) ->
  In e [KBinary; KUnsupported; KNotText] -> c' = c.
Proof.
  unfold load_bytes. intros H I.
  assert (T : load_text_kernel c alias bytes = Some (c', Err e) -> c' = c).
  { unfold load_text_kernel. destruct (parse bytes) as [[d|x|]|]; try discriminate.
    - intros E. injection E as E. apply C31_error in E. destruct I as [<-|[<-|[<-|[]]]]; destruct E.
    - intros E. injection E as <- _. reflexivity. }
  destruct (starts_with _ _); [destruct (read_spk bytes); injection H as <- X; try discriminate; reflexivity|].
  destruct (starts_with _ _); [destruct (read_ck bytes); injection H as <- X; try discriminate; reflexivity|].
  destruct (_ || _)%bool; [injection H as <- X; reflexivity|]. destruct (_ || _)%bool; [injection H as <- X; reflexivity|].
  destruct (utf8 bytes); [now apply T|injection H as <- X; reflexivity].
Qed.
End Load.
(** A kernel with good leap seconds and a bad frame is refused, yet its leap seconds have replaced those in force. *)
Definition mixed_text : str := lines ["\begindata"; "DELTET/DELTA_T_A = 32.184"; "DELTET/DELTA_AT = ( 10, @1972-JAN-1 )"; "FRAME_5_NAME = 'X'"].
Definition good_lsk : str := lines ["\begindata"; "DELTET/DELTA_T_A = 32.184"; "DELTET/DELTA_AT = ( 10, @1972-JAN-1"; " 11, @1972-JUL-1 )"].
Theorem C31_refuted : exists (c0 c c' : ctx unit unit) e, load_text_kernel empty (lit "a") good_lsk = Some (c, Ok tt) /\
  load_text_kernel c (lit "b") mixed_text = Some (c', Err e) /\ c0 = empty /\
  option_map fst (lsk c) = Some (lit "a") /\ option_map fst (lsk c') = Some (lit "b").
Proof. exists empty. eexists. eexists. eexists. split; [vm_compute; reflexivity|]. split; [vm_compute; reflexivity|]. repeat split. Qed.
Example C31_case : exists d e, parse (lines ["\begindata"; "FRAME_5_NAME = 'X'"]) = Some (Ok d) /\ has_lsk d = false /\ has_fk d = true /\ has_pck d = false /\ has_sclk d = false /\ has_ik d = false /\
  load_table (@empty unit unit) (lit "a") d = (empty, Err (KFk e)).
Proof. eexists. eexists. split; [vm_compute; reflexivity|]. repeat split; vm_compute; reflexivity. Qed.
Example C57_case : exists c : ctx unit unit, load_text_kernel empty (lit "a") good_lsk = Some (c, Ok tt) /\
  option_map (fun x => List.length (Lsk_Model.leap_table (snd x))) (lsk c) = Some 2%nat /\ registry c = [j2000].
Proof. eexists. split; [vm_compute; reflexivity|]. split; reflexivity. Qed.
(** A file without any known variable is accepted and adds nothing. *)
Theorem C57_empty_refuted : load_text_kernel (@empty unit unit) (lit "a") (lit "this is not a kernel") = Some (empty, Ok tt).
Proof. vm_compute. reflexivity. Qed.

Print Assumptions C30_rates.
Print Assumptions C29_identity.
Print Assumptions C29_compose.
Print Assumptions C29_inverse.
Print Assumptions C29_orthonormal.
Print Assumptions C29_lengths.
Print Assumptions C29_no_reflection.
Print Assumptions C29_one_answer.
Print Assumptions C29_chain.
Print Assumptions C29_ends.
Print Assumptions C29_depth.
Print Assumptions C29_newest.
Print Assumptions C29_unknown_refuted.
Print Assumptions C29_self_refuted.
Print Assumptions C29_shadow_refuted.
Print Assumptions C30_rotation.
Print Assumptions C30_pole.
Print Assumptions C30_pole_iff.
Print Assumptions C30_published.
Print Assumptions C30_exact_iff.
Print Assumptions C30_half_turn_refuted.
Print Assumptions C30_pole_refuted.
Print Assumptions C30_newest.
Print Assumptions C30_panic_iff.
Print Assumptions C30_panic_refuted.
(** What makes a loaded table count as a kernel of each kind *)
Lemma starts_with_app p s : starts_with p s = true <-> exists r, s = p ++ r.
Proof.
  revert s; induction p as [|a p IH]; intros s; cbn; [split; [now exists s|reflexivity]|]. destruct s as [|b s]; [split; [discriminate|intros (r & [=])]|].
  rewrite andb_true_iff, N.eqb_eq, IH. split; [intros (-> & r & ->); now exists r|intros (r & [= -> ->]); split; [reflexivity|now exists r]].
Qed.
Lemma contains_app p s : contains p s = true <-> exists a b, s = a ++ p ++ b.
Proof.
  induction s as [|x s IH]; cbn [contains]; rewrite orb_true_iff, starts_with_app.
  - split; [intros [(r & E)|[=]]; now exists [], r|intros (a & b & E); left; exists b; now destruct a].
  - rewrite IH. split; [intros [(r & E)|(a & b & ->)]; [now exists [], r|now exists (x :: a), b]|].
    intros ([|y a] & b & E); [left; now exists b|right; injection E as -> ->; now exists a, b].
Qed.
Theorem C57_roles (d : table) :
  (has_lsk d = true <-> get d (lit "DELTET/DELTA_T_A") <> None \/ get d (lit "DELTET/DELTA_AT") <> None) /\
  (has_fk d = true <-> exists k v r, In (k, v) d /\ k = lit "FRAME_" ++ r) /\
  (has_sclk d = true <-> exists k v r, In (k, v) d /\ k = lit "SCLK01_COEFFICIENTS_" ++ r) /\
  (has_pck d = true <-> exists k v r, In (k, v) d /\ k = lit "BODY" ++ r /\ exists a b, k = a ++ lit "_POLE_RA" ++ b \/ k = a ++ lit "_RADII" ++ b) /\
  (has_ik d = true <-> exists k v r, In (k, v) d /\ k = lit "INS" ++ r /\ exists a b, k = a ++ lit "_FOV" ++ b).
Proof.
  unfold has_lsk, has_fk, has_sclk, has_pck, has_ik. rewrite orb_true_iff, !existsb_exists. repeat split.
  - intros [H|H]; [left|right]; intros E; rewrite E in H; discriminate H.
  - intros [H|H]; [left|right]; now destruct (get d _).
  - intros ((k & v) & I & H). apply starts_with_app in H as (r & H). now exists k, v, r.
  - intros (k & v & r & I & E). exists (k, v). split; [exact I|]. apply starts_with_app. now exists r.
  - intros ((k & v) & I & H). apply starts_with_app in H as (r & H). now exists k, v, r.
  - intros (k & v & r & I & E). exists (k, v). split; [exact I|]. apply starts_with_app. now exists r.
  - intros ((k & v) & I & H). apply andb_true_iff in H as (H & G). apply starts_with_app in H as (r & H). exists k, v, r. split; [exact I|]. split; [exact H|].
    apply orb_true_iff in G as [G|G]; apply contains_app in G as (a & b & G); exists a, b; [now left|now right].
  - intros (k & v & r & I & E & a & b & G). exists (k, v). split; [exact I|]. apply andb_true_iff. split; [apply starts_with_app; now exists r|].
    apply orb_true_iff. destruct G as [G|G]; [left|right]; apply contains_app; now exists a, b.
  - intros ((k & v) & I & H). apply andb_true_iff in H as (H & G). apply starts_with_app in H as (r & H). exists k, v, r. split; [exact I|]. split; [exact H|].
    apply contains_app in G as (a & b & G). now exists a, b.
  - intros (k & v & r & I & E & a & b & G). exists (k, v). split; [exact I|]. apply andb_true_iff. split; [apply starts_with_app; now exists r|].
    apply contains_app; now exists a, b.
Qed.
Print Assumptions C57_roles.
Print Assumptions C57_loaded.
Print Assumptions C57_accepted.
Print Assumptions C57_keeps.
Print Assumptions C31_syntax.
Print Assumptions C31_error.
Print Assumptions C31_one_role.
Print Assumptions C31_binary.
Print Assumptions C31_refuted.
Print Assumptions C57_empty_refuted.
