(** Proofs for C141: the parameters that the code reports. *)
From Coq Require Import List ZArith Bool Reals Lra Lia Psatz Permutation.
From Verif Require Import Py Inst SpecGeom SpecMatrix SpecBezier SpecFit SpecCurve SpecConvex SpecCross MBezUtil MBezier ProofMatrix ProofFit ProofBezier ProofBezier2 ProofAlign ProofRoots ProofConvex ProofCross.
Import ListNotations.
Local Open Scope R_scope.
#[local] Hint Extern 0 (TrigOps R) => exact (RTrig (fun x => x)) : typeclass_instances.

Lemma velocity_curve (b : bezier R) t d : (length (cps b) = 3 \/ length (cps b) = 4)%nat -> derivative b t = Ok d -> d = curve (legs (cps b)) t.
Proof.
  intros L E. destruct (derivative_ok b t L) as (d' & E' & D). rewrite E in E'. injection E' as <-. pose proof (curve_deriv (cps b) t ltac:(lia)) as D'.
  rewrite <- legs_dc by exact L. replace (nth 0 (dcPoints b) []) with (dcLevel (diffStep (length (cps b) - 1)) (cps b)) by (unfold dcPoints; destruct L as [-> | ->]; reflexivity).
  destruct D as [D1 D2], D' as [D3 D4]. rewrite (surjective_pairing d), (surjective_pairing (curve _ _)). f_equal; eapply uniqueness_limite; eassumption.
Qed.
Section Line.
  Variables (a z : pt).
  Hypothesis AZ : a <> z.
  Lemma cross_line (p : pt) : vcross (vsub z a) (vsub p a) = 0 <-> on_line a z p.
  Proof.
    split.
    - intros E. unfold on_line, along, vadd, vscale. destruct a as [ax ay], z as [zx zy], p as [px py]. unfold vcross, vsub in *. cbn [fst snd] in *.
      destruct (Req_dec zx ax) as [X|X].
      + assert (Y : zy <> ay) by (intros Y; apply AZ; congruence). exists ((py - ay) / (zy - ay)). rewrite X in *. assert (px = ax) by (assert (K : (zy - ay) * (px - ax) = 0) by lra; apply Rmult_integral in K; destruct K; lra). f_equal; [rewrite H; ring | field; lra].
      + exists ((px - ax) / (zx - ax)). f_equal; [field; lra|]. apply (Rmult_eq_reg_l (zx - ax)); [|lra]. field_simplify; [|lra]. lra.
    - intros (s & ->). unfold vcross, along, vadd, vscale, vsub. cbn [fst snd]. ring.
  Qed.
  Lemma side_line p : side (snd a - snd z) (fst z - fst a) ((snd a - snd z) * fst a + (fst z - fst a) * snd a) p = vcross (vsub z a) (vsub p a).
  Proof. unfold side, vcross, vsub. cbn [fst snd]. ring. Qed.
  Lemma line_is ps : crossings (snd a - snd z) (fst z - fst a) ((snd a - snd z) * fst a + (fst z - fst a) * snd a) ps = line_crossings a z ps.
  Proof. unfold crossings, line_crossings. f_equal. apply map_ext. intros. apply side_line. Qed.
  Lemma classic_off (ps : list pt) : (exists q, In q ps /\ ~ on_line a z q) \/ (forall q, In q ps -> on_line a z q).
  Proof.
    induction ps as [|p ps [(q & I & N)|A]]; [right; intros q [] | left; exists q; split; [now right | exact N]|]. destruct (Req_dec (vcross (vsub z a) (vsub p a)) 0) as [E|E].
    - right. intros q [<-|I]; [now apply cross_line | now apply A].
    - left. exists p. split; [now left|]. intros K. apply E. now apply cross_line.
  Qed.
  Lemma sound_crossings (b : bezier R) l ts : (length (cps b) = 3 \/ length (cps b) = 4)%nat -> roots b (Some [a; z]) = Ok l ->
    ((exists q, In q (cps b) /\ ~ on_line a z q) -> forall t, In t l -> on_line a z (curve (cps b) t)) ->
    NoDup ts -> incl ts l -> (forall t, In t ts -> 0 < t < 1) -> (length ts <= line_crossings a z (cps b))%nat.
  Proof.
    intros L E H D I T. destruct (classic_off (cps b)) as [N|N].
    - rewrite <- line_is. apply curve_crossings; [|exact D|].
      + destruct N as (q & Q & O). exists q. split; [exact Q|]. rewrite side_line. intros K. apply O. now apply cross_line.
      + intros t It. split; [now apply T|]. rewrite side_line. apply cross_line. apply (H N), I, It.
    - pose proof (roots_in_line a z AZ b L N) as K. pose proof (eq_trans (eq_sym E) K) as Z. injection Z as ->. destruct ts as [|t ts]; [simpl; lia|]. destruct (I t (or_introl eq_refl)).
  Qed.
  Theorem quadratic_crossings (b : bezier R) l ts : length (cps b) = 3%nat -> roots b (Some [a; z]) = Ok l -> NoDup ts -> incl ts l -> (forall t, In t ts -> 0 < t < 1) ->
    (length ts <= line_crossings a z (cps b))%nat.
  Proof.
    intros L E. apply (sound_crossings b l ts (or_introl L) E). intros N t I. destruct (roots_line_quadratic a z AZ b L N) as (l' & E' & H). pose proof (eq_trans (eq_sym E) E') as Z. injection Z as <-. now apply (H t).
  Qed.
  Theorem cubic_crossings (b : bezier R) l ts : length (cps b) = 4%nat ->
    let y := fun i => vcross (vsub z a) (vsub (nth i (cps b) (0, 0)) a) / vdist a z in cubic_clear (y 0%nat) (y 1%nat) (y 2%nat) (y 3%nat) ->
    roots b (Some [a; z]) = Ok l -> NoDup ts -> incl ts l -> (forall t, In t ts -> 0 < t < 1) -> (length ts <= line_crossings a z (cps b))%nat.
  Proof.
    intros L y Y E. apply (sound_crossings b l ts (or_intror L) E). intros N t I. destruct (roots_line_cubic a z AZ b L N Y) as (l' & E' & H). pose proof (eq_trans (eq_sym E) E') as Z. injection Z as <-. now apply (H t).
  Qed.
  Lemma filterM_sub {A} (f : A -> res bool) : forall l l', filterM f l = Ok l' -> incl l' l.
  Proof.
    induction l as [|x l IH]; intros l'; cbn [filterM]; [intros E; injection E as <-; intros y []|]. destruct (f x) as [k|]; cbn [bind]; [|discriminate]. destruct (filterM f l) as [r|] eqn:F; cbn [bind]; [|discriminate].
    intros E. injection E as <-. specialize (IH r eq_refl). intros y. destruct k; [intros [<-|I]; [now left | right; now apply IH] | intros I; right; now apply IH].
  Qed.
  Theorem intersects_sub (b : bezier R) l : lineIntersects b a z = Ok l -> exists l', roots b (Some [a; z]) = Ok l' /\ incl l l'.
  Proof. unfold lineIntersects. destruct (roots b (Some [a; z])) as [l'|] eqn:E; cbn [bind]; [|discriminate]. intros F. exists l'. split; [reflexivity | now apply filterM_sub in F]. Qed.
End Line.

Theorem velocity_crossings (b : bezier R) (x y : R) ts : (length (cps b) = 3 \/ length (cps b) = 4)%nat -> (exists v, In v (legs (cps b)) /\ side x y 0 v <> 0) -> NoDup ts ->
  (forall t, In t ts -> 0 < t < 1 /\ exists d, derivative b t = Ok d /\ side x y 0 d = 0) -> (length ts <= crossings x y 0 (legs (cps b)))%nat.
Proof.
  intros L N D H. apply curve_crossings; [exact N | exact D|]. intros t I. destruct (H t I) as (T & d & E & S0). split; [exact T|]. now rewrite <- (velocity_curve b t d L E).
Qed.
