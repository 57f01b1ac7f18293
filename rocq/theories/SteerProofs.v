(** How the number of corners of a contour changes when a triangle is cut off or cut out. *)
From Coq Require Import List Lia.
From Verif Require Import Base Utils Geometry Ctx Spec SteerSpec QcTac GeomProofs QuadEdge Triangulation Factories.
Import ListNotations.
Open Scope Z_scope.

Lemma bends_snoc l a b c : bends (l ++ [a; b; c]) = bends (l ++ [a; b]) + bend a b c.
Proof.
  induction l as [|x [|y l] IH]; cbn [app bends]; [lia| |].
  - cbn [app bends]. lia.
  - cbn [app] in IH. destruct l; cbn [app bends] in *; lia.
Qed.
Lemma bend_swap a b c : bend a b c = bend c b a.
Proof.
  unfold bend. assert (E : (cross c b a = - cross a b c)%Qc) by (unfold cross; ring).
  destruct (Qc_eq_dec (cross a b c) 0) as [z|z], (Qc_eq_dec (cross c b a) 0) as [z'|z']; auto; exfalso.
  - apply z'. rewrite E, z. ring.
  - apply z. assert (X : (cross a b c = - cross c b a)%Qc) by (rewrite E; ring). rewrite X, z'. ring.
Qed.
Lemma bend_turn a b c : bend a b c = bend b c a.
Proof. unfold bend. replace (cross b c a) with (cross a b c) by (unfold cross; ring). reflexivity. Qed.
Lemma col_bend h e p a b : start h e = a -> end_ h e = b -> b2z (orientation_eqb (orientation_of h e p) COLLINEAR) = 1 - bend a b p.
Proof.
  intros <- <-. unfold bend. destruct (orientation_eqb (orientation_of h e p) COLLINEAR) eqn:E.
  - apply orientation_eqb_eq in E. unfold orientation_of in E. apply orientation_col in E. unfold collinear in E.
    destruct (Qc_eq_dec (cross (start h e) (end_ h e) p) 0) as [z|z]; [reflexivity|contradiction].
  - destruct (Qc_eq_dec (cross (start h e) (end_ h e) p) 0) as [z|z]; [|reflexivity].
    assert (X : orientation_eqb (orientation_of h e p) COLLINEAR = true) by (apply orientation_eqb_eq; unfold orientation_of; apply orientation_col; exact z). congruence.
Qed.
Lemma bend_flip a b c : bend a b c = bend b a c.
Proof. rewrite bend_swap, bend_turn, bend_turn, bend_swap, bend_turn. reflexivity. Qed.
Lemma bends_around a l b c d : bends (a :: (l ++ [b]) ++ [c; d]) = bends ((a :: l) ++ [b; c]) + bend b c d.
Proof. rewrite <- app_assoc. cbn [app]. apply (bends_snoc (a :: l)). Qed.
Lemma bend_one a b c : ~ collinear a b c -> bend a b c = 1.
Proof. intros H. unfold bend. destruct (Qc_eq_dec (cross a b c) 0); [contradiction|reflexivity]. Qed.
Lemma bends_two a b c l : bends (a :: b :: c :: l) = bend a b c + bends (b :: c :: l).
Proof. reflexivity. Qed.

Lemma mouth_steers h e s t x p n l1 l2 : start h e = s -> end_ h e = t ->
  start h (left_from_start h e) = s -> end_ h (left_from_start h e) = x -> start h (left_from_end h e) = t -> end_ h (left_from_end h e) = x ->
  end_ h (right_from_start h e) = p -> end_ h (right_from_end h e) = n -> n :: l1 = l2 ++ [p] -> ~ collinear s x t ->
  corners (s :: x :: t :: n :: l1) = corners (s :: t :: n :: l1) + mouth_to_increment h e.
Proof.
  intros Hs Ht A1 A2 B1 B2 Hp Hn El C. unfold corners, mouth_to_increment. rewrite Hp, Hn.
  rewrite (col_bend h _ p s x A1 A2), (col_bend h _ n t x B1 B2), (col_bend h _ p s t Hs Ht), (col_bend h _ n s t Hs Ht).
  cbn [app]. rewrite !bends_two, (bend_one _ _ _ C).
  change (t :: n :: l1 ++ [s; x]) with (t :: (n :: l1) ++ [s; x]). change (t :: n :: l1 ++ [s; t]) with (t :: (n :: l1) ++ [s; t]).
  rewrite El, !bends_around. rewrite (bend_turn p s x), (bend_turn p s t), (bend_flip x t n). lia.
Qed.
Lemma ear_steers h e s t n m p l1 l2 : start h e = s -> end_ h e = t ->
  start h (right_from_end h e) = t -> end_ h (right_from_end h e) = n -> start h (right_from_end h (right_from_end h e)) = n -> end_ h (right_from_end h (right_from_end h e)) = m ->
  start h (right_from_start h e) = s -> end_ h (right_from_start h e) = p -> m :: l1 = l2 ++ [p] -> ~ collinear s t n ->
  corners (s :: n :: m :: l1) = corners (s :: t :: n :: m :: l1) + ear_to_increment h e.
Proof.
  intros Hs Ht A1 A2 B1 B2 C1 C2 El C. unfold corners, ear_to_increment. rewrite A2, B2, C2, Hs.
  rewrite (col_bend h _ m t n A1 A2), (col_bend h _ p s t Hs Ht), (col_bend h _ n s p C1 C2), (col_bend h _ s n m B1 B2).
  cbn [app]. rewrite !bends_two, (bend_one _ _ _ C).
  change (n :: m :: l1 ++ [s; n]) with (n :: (m :: l1) ++ [s; n]). change (n :: m :: l1 ++ [s; t]) with (n :: (m :: l1) ++ [s; t]).
  rewrite El, !bends_around. rewrite (bend_turn p s t), (bend_turn s n m), (bend_flip p s n). lia.
Qed.
