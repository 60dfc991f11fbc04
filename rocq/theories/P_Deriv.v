(** * Derivatives of expressions, and what their sign says *)
From Coq Require Import Reals Lra.
Local Open Scope R_scope.

Lemma D_val f x l l' : derivable_pt_lim f x l -> l = l' -> derivable_pt_lim f x l'.
Proof. intros H <-. exact H. Qed.
Lemma D_pow f n x l : derivable_pt_lim f x l -> derivable_pt_lim (fun y => f y ^ n) x (INR n * f x ^ pred n * l).
Proof. intro H. apply (derivable_pt_lim_comp f (fun y => y ^ n)); [exact H|apply derivable_pt_lim_pow]. Qed.
Lemma D_ln f x l : 0 < f x -> derivable_pt_lim f x l -> derivable_pt_lim (fun y => ln (f y)) x (/ f x * l).
Proof. intros P H. apply (derivable_pt_lim_comp f ln); [exact H|apply derivable_pt_lim_ln; exact P]. Qed.
Lemma D_exp f x l : derivable_pt_lim f x l -> derivable_pt_lim (fun y => exp (f y)) x (exp (f x) * l).
Proof. intro H. apply (derivable_pt_lim_comp f exp); [exact H|apply derivable_pt_lim_exp]. Qed.
Lemma D_sin f x l : derivable_pt_lim f x l -> derivable_pt_lim (fun y => sin (f y)) x (cos (f x) * l).
Proof. intro H. apply (derivable_pt_lim_comp f sin); [exact H|apply derivable_pt_lim_sin]. Qed.
Lemma D_cos f x l : derivable_pt_lim f x l -> derivable_pt_lim (fun y => cos (f y)) x (- sin (f x) * l).
Proof. intro H. apply (derivable_pt_lim_comp f cos); [exact H|apply derivable_pt_lim_cos]. Qed.
Lemma D_sqrt f x l : 0 < f x -> derivable_pt_lim f x l -> derivable_pt_lim (fun y => sqrt (f y)) x (/ (2 * sqrt (f x)) * l).
Proof. intros P H. apply (derivable_pt_lim_comp f sqrt); [exact H|apply derivable_pt_lim_sqrt; exact P]. Qed.
Lemma D_div f g x l m : g x <> 0 -> derivable_pt_lim f x l -> derivable_pt_lim g x m ->
  derivable_pt_lim (fun y => f y / g y) x ((l * g x - m * f x) / Rsqr (g x)).
Proof. intros. apply derivable_pt_lim_div; assumption. Qed.
(** build the derivative; leaves the side conditions *)
Ltac der := match goal with
  | |- derivable_pt_lim (fun _ => ?c) _ _ => apply derivable_pt_lim_const
  | |- derivable_pt_lim (fun x => x) _ _ => apply derivable_pt_lim_id
  | |- derivable_pt_lim (fun x => @?f x + @?g x) _ _ => apply (derivable_pt_lim_plus f g); [der|der]
  | |- derivable_pt_lim (fun x => @?f x - @?g x) _ _ => apply (derivable_pt_lim_minus f g); [der|der]
  | |- derivable_pt_lim (fun x => - @?f x) _ _ => apply (derivable_pt_lim_opp f); der
  | |- derivable_pt_lim (fun x => @?f x * @?g x) _ _ => apply (derivable_pt_lim_mult f g); [der|der]
  | |- derivable_pt_lim (fun x => @?f x / @?g x) _ _ => apply (D_div f g); [|der|der]
  | |- derivable_pt_lim (fun x => @?f x ^ ?n) _ _ => apply (D_pow f n); der
  | |- derivable_pt_lim (fun x => ln (@?f x)) _ _ => apply (D_ln f); [|der]
  | |- derivable_pt_lim (fun x => exp (@?f x)) _ _ => apply (D_exp f); der
  | |- derivable_pt_lim (fun x => sin (@?f x)) _ _ => apply (D_sin f); der
  | |- derivable_pt_lim (fun x => cos (@?f x)) _ _ => apply (D_cos f); der
  | |- derivable_pt_lim (fun x => sqrt (@?f x)) _ _ => apply (D_sqrt f); [|der]
  | _ => idtac
  end.
(** a derivative positive inside an interval: the function grows *)
Lemma grows f f' a b : a < b -> (forall c, a <= c <= b -> derivable_pt_lim f c (f' c)) -> (forall c, a < c < b -> 0 < f' c) -> f a < f b.
Proof.
  intros L D P. destruct (MVT_cor2 f f' a b L D) as [c [E C]]. pose proof (P c C). assert (0 < f' c * (b - a)) by (apply Rmult_lt_0_compat; lra). lra.
Qed.
Lemma falls f f' a b : a < b -> (forall c, a <= c <= b -> derivable_pt_lim f c (f' c)) -> (forall c, a < c < b -> f' c < 0) -> f b < f a.
Proof.
  intros L D P. destruct (MVT_cor2 f f' a b L D) as [c [E C]]. pose proof (P c C). assert (0 < - f' c * (b - a)) by (apply Rmult_lt_0_compat; lra). lra.
Qed.
