(** Carving: what is left when boundary edges are deleted one by one. *)
From Coq Require Import List Lia.
From Verif Require Import Base Geometry Spec QcTac QcFast GeomProofs DelGeo DelCyc DelMap DelFan DelOps DelCand DelMerge DelStart DelTangent DelHull.
Import ListNotations.
Open Scope Qc_scope.

(** [bd u w]: the boundary, interior on the left, passes from [u] to [w]. *)
Record carved (S : list point) (m : map) (bd : point -> point -> Prop) : Prop := Carved {
  k_laws : laws S m;
  k_bd : forall u w, bd u w -> me m u w;
  k_next : forall u w, bd u w -> bd w (mn m w u);
  k_fun : forall u w w', bd u w -> bd u w' -> w = w';
  k_two : forall u w, bd u w -> ~ bd w u;
  k_corner : forall v a, me m v a -> bd a v \/ vtri S m v a (mn m v a) }.

Lemma hull_carved S m : DT S m -> (forall a b, In a S -> In b S -> a <> b -> exists c, In c S /\ cross a b c <> 0) -> carved S m (hd S m).
Proof.
  intros T NC. pose proof (d_laws _ _ T) as W. split; auto.
  - intros u w H. apply H.
  - apply (hd_next S m T).
  - apply (hd_fun S m T NC).
  - intros u w (H & A) (H' & A'). destruct (NC u w (l_in _ _ W _ _ H) (l_in _ _ W _ _ H') ltac:(intros e; apply (l_ne _ _ W _ _ H); auto)) as (c & Hc & Nc).
    apply Nc. specialize (A c Hc). specialize (A' c Hc). rewrite cross_flip in A'. ql.
  - intros v a H. destruct (d_corner _ _ T v a H) as [t|g]; [right; apply tri_vtri, t|left].
    destruct (l_next _ _ W _ _ H) as (H' & _). split; [apply (l_sym _ _ W), H|].
    intros q Hq. rewrite cross_flip. pose proof (gap_right S v a (mn m v a) (l_ne _ _ W _ _ H') (l_ne _ _ W _ _ H) g q Hq). ql.
Qed.

Section D.
Context (S : list point) (m : map) (bd : point -> point -> Prop) (K : carved S m bd).
Let W := k_laws _ _ _ K.
Lemma bd_inj u u' w : bd u w -> bd u' w -> u = u'.
Proof.
  intros H H'. pose proof (k_fun _ _ _ K _ _ _ (k_next _ _ _ K _ _ H) (k_next _ _ _ K _ _ H')) as e.
  destruct (l_next _ _ W _ _ (l_sym _ _ W _ _ (k_bd _ _ _ K _ _ H))) as (_ & e1).
  destruct (l_next _ _ W _ _ (l_sym _ _ W _ _ (k_bd _ _ _ K _ _ H'))) as (_ & e2). rewrite <- e1, <- e2, e. reflexivity.
Qed.
(** The triangle behind a boundary edge. *)
Lemma bd_triangle u w : bd u w -> let v := mn m u w in
  vacant S u w v /\ me m u v /\ me m w v /\ mn m w v = u /\ mn m v u = w /\ u <> w /\ u <> v /\ w <> v.
Proof.
  intros H v. pose proof (k_bd _ _ _ K _ _ H) as E.
  destruct (k_corner _ _ _ K _ _ E) as [B|(t & t')]; [destruct (k_two _ _ _ K _ _ H B)|]. fold v in t, t'.
  destruct (l_next _ _ W _ _ E) as (Ev & _). fold v in Ev.
  destruct (vacant_neq _ _ _ _ t) as (n1 & n2 & n3).
  split; [exact t|]. split; [exact Ev|]. split; [exact t'|].
  split; [apply (vtri_corner _ _ W); auto using (l_sym _ _ W); apply vacant_rot; exact t|].
  split; [apply (vtri_corner _ _ W); auto using (l_sym _ _ W); apply vacant_rot, vacant_rot; exact t|].
  repeat split; congruence.
Qed.

Definition bd_del (u w v : point) (a b : point) : Prop := (bd a b /\ ~ (a = u /\ b = w)) \/ (a = u /\ b = v) \/ (a = v /\ b = w).
Lemma carved_del u w : bd u w -> (forall x, ~ bd (mn m u w) x) -> carved S (del m u w) (bd_del u w (mn m u w)).
Proof.
  intros H F. destruct (bd_triangle u w H) as (t & Euv & Ewv & e1 & e2 & n1 & n2 & n3). set (v := mn m u w) in *.
  pose proof (k_bd _ _ _ K _ _ H) as Euw. pose proof (k_two _ _ _ K _ _ H) as N2.
  assert (F' : forall x, ~ bd x v) by (intros x hx; apply (F _ (k_next _ _ _ K _ _ hx))).
  assert (Tc : forall x, vacant S u w x -> me m u x -> me m w x -> x = v).
  { intros x tx Ex Ex'. symmetry. apply (vtri_corner _ _ W); auto. }
  assert (ev : mn m u w = v) by reflexivity. clearbody v.
  split.
  - apply laws_del; assumption.
  - cbn [del me]. unfold same_edge. intros a b [(h & h')|[(-> & ->)|(-> & ->)]].
    + split; [apply (k_bd _ _ _ K), h|]. intros [x|(-> & ->)]; [auto|]. apply (N2 h).
    + split; [exact Euv|]. intros [x|x]; intuition congruence.
    + split; [apply (l_sym _ _ W), Ewv|]. intros [x|x]; intuition congruence.
  - cbn [del mn]. intros a b [(h & h')|[(-> & ->)|(-> & ->)]].
    + destruct (point_eq_dec b u) as [->|nb].
      * unfold skip1. pose proof (k_fun _ _ _ K _ _ _ (k_next _ _ _ K _ _ h) H) as e. destruct (point_eq_dec (mn m u a) w) as [_|n]; [|congruence].
        right. left. auto.
      * destruct (point_eq_dec b w) as [->|nw]; [exfalso; apply h'; split; [apply (bd_inj a u w h H)|reflexivity]|].
        left. split; [apply (k_next _ _ _ K), h|]. intros (x & _). congruence.
    + destruct (point_eq_dec v u) as [x|_]; [congruence|]. destruct (point_eq_dec v w) as [x|_]; [congruence|]. rewrite e2. right. right. auto.
    + destruct (point_eq_dec w u) as [x|_]; [congruence|]. destruct (point_eq_dec w w) as [_|x]; [|congruence].
      unfold skip1. rewrite e1. destruct (point_eq_dec u u) as [_|x]; [|congruence]. left. split; [apply (k_next _ _ _ K), H|].
      intros (x & _). congruence.
  - intros a b b' [(h & h')|[(-> & ->)|(-> & ->)]] [(g & g')|[(g & ->)|(g & ->)]]; try congruence.
    + apply (k_fun _ _ _ K a); auto.
    + subst a. exfalso. apply h'. split; [reflexivity|]. apply (k_fun _ _ _ K u); auto.
    + subst a. destruct (F _ h).
    + exfalso. apply g'. split; [reflexivity|]. apply (k_fun _ _ _ K u); auto.
    + destruct (F _ g).
  - intros a b [(h & h')|[(-> & ->)|(-> & ->)]] [(g & g')|[(g & g')|(g & g')]]; try congruence; subst.
    + apply (k_two _ _ _ K _ _ h g).
    + apply (F _ h).
    + apply (F' _ h).
    + apply (F _ g).
    + apply (F' _ g).
  - cbn [del me mn]. unfold same_edge. intros x a (E & Ns).
    assert (Old : mn m x a = mn m x a -> (x = u -> mn m x a <> w) -> (x = w -> mn m x a <> u) -> bd_del u w v a x \/ vtri S (del m u w) x a (mn m x a)).
    { intros _ nu nw. destruct (k_corner _ _ _ K _ _ E) as [B|(t1 & t2)].
      - left. left. split; [exact B|]. intros (-> & ->). apply Ns. auto.
      - set (b := mn m x a) in *. destruct (l_next _ _ W _ _ E) as (Eb & _). fold b in Eb.
        destruct (point_eq_dec a u) as [->|na]; [destruct (point_eq_dec b w) as [eb|nb]|].
        + left. right. left. split; [reflexivity|]. rewrite eb in *. apply Tc; auto using (l_sym _ _ W). apply vacant_rot, t1.
        + right. split; [exact t1|]. cbn [del me]. split; [exact t2|]. unfold same_edge. intuition congruence.
        + destruct (point_eq_dec a w) as [->|na']; [destruct (point_eq_dec b u) as [eb|nb]|].
          * left. left. rewrite eb in *. split; [|intros (-> & _); congruence].
            assert (e : mn m w u = x) by (apply (vtri_corner _ _ W); auto using (l_sym _ _ W); apply vacant_rot, t1).
            rewrite <- e. apply (k_next _ _ _ K), H.
          * right. split; [exact t1|]. cbn [del me]. split; [exact t2|]. unfold same_edge. intuition congruence.
          * right. split; [exact t1|]. cbn [del me]. split; [exact t2|]. unfold same_edge. intuition congruence. }
    destruct (point_eq_dec x u) as [->|nx].
    + unfold skip1. destruct (point_eq_dec (mn m u a) w) as [e|n]; [|apply Old; auto; congruence].
      left. left. split; [|intros (-> & _); apply (l_ne _ _ W _ _ E); reflexivity].
      destruct (k_corner _ _ _ K _ _ E) as [B|(t1 & t2)]; [exact B|]. rewrite e in t1, t2.
      assert (e3 : mn m w u = a) by (apply (vtri_corner _ _ W); auto using (l_sym _ _ W); apply vacant_rot, vacant_rot, t1).
      assert (e4 : mn m a w = u) by (apply (vtri_corner _ _ W); auto using (l_sym _ _ W); apply vacant_rot, t1).
      pose proof (k_next _ _ _ K _ _ H) as h1. rewrite e3 in h1. pose proof (k_next _ _ _ K _ _ h1) as h2. rewrite e4 in h2. exact h2.
    + destruct (point_eq_dec x w) as [->|nw]; [|apply Old; auto; congruence].
      unfold skip1. destruct (point_eq_dec (mn m w a) u) as [e|n]; [|apply Old; auto; congruence].
      left. right. right. split; [|reflexivity]. destruct (l_next _ _ W _ _ E) as (_ & p1). destruct (l_next _ _ W _ _ Ewv) as (_ & p2). congruence.
Qed.
End D.
