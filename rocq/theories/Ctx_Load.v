From Coq Require Import Ascii String List NArith ZArith QArith Bool Lia Reals.
From Verif Require Import Base Text DecFloat Sort Fnum Omm_Model Tk_Model.
From Verif Require Lsk_Model Sclk_Model Fk_Model Pck_Model Ik_Model.
From Verif Require Import Mat3 Ctx_Model.
Import ListNotations.
Local Open Scope Z_scope.
Local Open Scope list_scope.

Section Load.
Context {S C : Type}.
Notation ctx := (ctx S C).
(** [c'] is [c] with exactly the chosen roles of the kernel added under the alias *)
Definition added (c : ctx) (alias : str) (d : table) (l f p s i : bool) (c' : ctx) : Prop :=
  spk c' = spk c /\ ck c' = ck c /\
  (if l then exists a, Lsk_Model.from_table d = Ok a /\ lsk c' = Some (alias, a) else lsk c' = lsk c) /\
  (if f then exists a, Fk_Model.from_table d = Ok a /\ fk c' = fk c ++ [(alias, a)] /\ registry c' = registry c ++ a else fk c' = fk c /\ registry c' = registry c) /\
  (if p then exists a, Pck_Model.from_table d = Ok a /\ pck c' = pck c ++ [(alias, a)] else pck c' = pck c) /\
  (if s then exists a, Sclk_Model.from_table d = Ok a /\ sclk c' = sclk c ++ map (pair alias) a else sclk c' = sclk c) /\
  (if i then exists a, Ik_Model.from_table d = Ok a /\ ik c' = ik c ++ [(alias, a)] else ik c' = ik c).
Definition outcome_of (c : ctx) (alias : str) (d : table) (c' : ctx) (r : outcome unit ctx_err) : Prop :=
  match r with
  | Ok _ => added c alias d (has_lsk d) (has_fk d) (has_pck d) (has_sclk d) (has_ik d) c'
  | Err (KLsk e) => has_lsk d = true /\ Lsk_Model.from_table d = Err e /\ c' = c
  | Err (KFk e) => has_fk d = true /\ Fk_Model.from_table d = Err e /\ added c alias d (has_lsk d) false false false false c'
  | Err (KPck e) => has_pck d = true /\ Pck_Model.from_table d = Err e /\ added c alias d (has_lsk d) (has_fk d) false false false c'
  | Err (KSclk e) => has_sclk d = true /\ Sclk_Model.from_table d = Err e /\ added c alias d (has_lsk d) (has_fk d) (has_pck d) false false c'
  | Err (KIk e) => has_ik d = true /\ Ik_Model.from_table d = Err e /\ added c alias d (has_lsk d) (has_fk d) (has_pck d) (has_sclk d) false c'
  | Err _ => False
  | Panic => (has_lsk d = true /\ Lsk_Model.from_table d = Panic /\ c' = c) \/ (has_sclk d = true /\ Sclk_Model.from_table d = Panic)
  end.
(** the same function of what the readers return *)
Definition load5 (c : ctx) (alias : str) bl rl bf rf bp rp bs rs bi ri : ctx * outcome unit ctx_err :=
  step KLsk c bl rl
    (fun a => Ctx (spk c) (ck c) (Some (alias, a)) (fk c) (pck c) (sclk c) (ik c) (registry c)) (fun c =>
  step KFk c bf rf
    (fun a => Ctx (spk c) (ck c) (lsk c) (fk c ++ [(alias, a)]) (pck c) (sclk c) (ik c) (registry c ++ a)) (fun c =>
  step KPck c bp rp
    (fun a => Ctx (spk c) (ck c) (lsk c) (fk c) (pck c ++ [(alias, a)]) (sclk c) (ik c) (registry c)) (fun c =>
  step KSclk c bs rs
    (fun a => Ctx (spk c) (ck c) (lsk c) (fk c) (pck c) (sclk c ++ map (pair alias) a) (ik c) (registry c)) (fun c =>
  step KIk c bi ri
    (fun a => Ctx (spk c) (ck c) (lsk c) (fk c) (pck c) (sclk c) (ik c ++ [(alias, a)]) (registry c)) (fun c => (c, Ok tt)))))).
Lemma load_table5 (c : ctx) alias d : load_table c alias d =
  load5 c alias (has_lsk d) (Lsk_Model.from_table d) (has_fk d) (Fk_Model.from_table d) (has_pck d) (Pck_Model.from_table d)
    (has_sclk d) (Sclk_Model.from_table d) (has_ik d) (Ik_Model.from_table d).
Proof. reflexivity. Qed.
Theorem load_outcome (Fnp : forall d, Fk_Model.from_table d <> Panic) (Pnp : forall d, Pck_Model.from_table d <> Panic) (Inp : forall d, Ik_Model.from_table d <> Panic)
  (c : ctx) alias d : outcome_of c alias d (fst (load_table c alias d)) (snd (load_table c alias d)).
Proof.
  specialize (Fnp d). specialize (Pnp d). specialize (Inp d). rewrite load_table5. unfold outcome_of, added. revert Fnp Pnp Inp.
  generalize (has_lsk d), (has_fk d), (has_pck d), (has_sclk d), (has_ik d).
  generalize (Lsk_Model.from_table d), (Fk_Model.from_table d), (Pck_Model.from_table d), (Sclk_Model.from_table d), (Ik_Model.from_table d).
  intros rl rf rp rs ri bl bf bp bs bi Fnp Pnp Inp. destruct c as [sp cc ls fs ps ss is re]. unfold load5.
  destruct bl; [destruct rl as [la|le|]|]; cbn [step fst snd]; auto.
  all: destruct bf; [destruct rf as [fa|fe|]; [| |congruence]|]; cbn [step fst snd spk ck lsk fk pck sclk ik registry]; try (repeat split; eauto; fail).
  all: destruct bp; [destruct rp as [pa|pe|]; [| |congruence]|]; cbn [step fst snd spk ck lsk fk pck sclk ik registry]; try (repeat split; eauto; fail).
  all: destruct bs; [destruct rs as [sa|se|]|]; cbn [step fst snd spk ck lsk fk pck sclk ik registry]; try (repeat split; eauto; fail); auto.
  all: destruct bi; [destruct ri as [ia|ie|]; [| |congruence]|]; cbn [step fst snd spk ck lsk fk pck sclk ik registry]; repeat split; eauto.
Qed.
(** Nothing loaded before is lost, except the leap seconds, which a new kernel replaces *)
Definition keeps (c c' : ctx) : Prop :=
  spk c' = spk c /\ ck c' = ck c /\ (exists x, fk c' = fk c ++ x) /\ (exists x, registry c' = registry c ++ x) /\ (exists x, pck c' = pck c ++ x) /\
  (exists x, sclk c' = sclk c ++ x) /\ (exists x, ik c' = ik c ++ x) /\ (lsk c' = None -> lsk c = None).
Lemma load_keeps (c : ctx) alias d : keeps c (fst (load_table c alias d)).
Proof.
  assert (N : forall A (l : list A), exists x, l = l ++ x) by (intros A l; exists []; now rewrite app_nil_r).
  rewrite load_table5. unfold keeps.
  generalize (has_lsk d), (has_fk d), (has_pck d), (has_sclk d), (has_ik d).
  generalize (Lsk_Model.from_table d), (Fk_Model.from_table d), (Pck_Model.from_table d), (Sclk_Model.from_table d), (Ik_Model.from_table d).
  intros rl rf rp rs ri bl bf bp bs bi. destruct c as [sp cc ls fs ps ss is re]. unfold load5.
  destruct bl; [destruct rl as [la|le|]|]; cbn [step fst snd spk ck lsk fk pck sclk ik registry]; try (repeat split; auto; fail).
  all: destruct bf; [destruct rf as [fa|fe|]|]; cbn [step fst snd spk ck lsk fk pck sclk ik registry]; try (repeat split; eauto; discriminate).
  all: destruct bp; [destruct rp as [pa|pe|]|]; cbn [step fst snd spk ck lsk fk pck sclk ik registry]; try (repeat split; eauto; discriminate).
  all: destruct bs; [destruct rs as [sa|se|]|]; cbn [step fst snd spk ck lsk fk pck sclk ik registry]; try (repeat split; eauto; discriminate).
  all: destruct bi; [destruct ri as [ia|ie|]|]; cbn [step fst snd spk ck lsk fk pck sclk ik registry]; repeat split; eauto; discriminate.
Qed.
End Load.
