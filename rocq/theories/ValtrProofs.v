(** The bounding box of convex contours. *)
From Coq Require Import List Lia Permutation Sorted.
From Verif Require Import Base Prog Geometry Ctx Utils Contracts Spec Factories Strategies StarSpec ValtrSpec QcTac ProgProofs GeomProofs ListProofs GridProofs
  PlanarProofs Planar SimpleProofs ConvexProofs StarProofs SequenceProofs Reference StarOrder.
Import List ListNotations.
Open Scope Qc_scope.

(** ** Sums of the steps. *)
Fixpoint qsum (l : list Qc) : Qc := match l with [] => 0 | v :: l => v + qsum l end.
Definition positive_part (v : Qc) : Qc := if qltb 0 v then v else 0.
Definition climb (l : list Qc) : Qc := qsum (map positive_part l).
Fixpoint befores (s : Qc) (l : list Qc) : list Qc := match l with [] => [] | v :: l => s :: befores (s + v) l end.
Fixpoint afters (s : Qc) (l : list Qc) : list Qc := match l with [] => [] | v :: l => (s + v) :: afters (s + v) l end.

Lemma positive_pos v : 0 <= v -> positive_part v = v.
Proof.
  intros H. unfold positive_part. destruct (qltb 0 v) eqn:E; [reflexivity|].
  apply Qcle_antisym; [exact H|]. apply Qcnot_lt_le. intros G. apply qltb_lt in G. congruence.
Qed.
Lemma positive_neg v : v <= 0 -> positive_part v = 0.
Proof. intros H. unfold positive_part. destruct (qltb 0 v) eqn:E; [|reflexivity]. apply qltb_lt in E. exfalso. clear - H E. qcl. Qed.
Lemma qsum_app a b : qsum (a ++ b) = qsum a + qsum b.
Proof. induction a as [|v a IH]; cbn [app qsum]; [ring|]. rewrite IH. ring. Qed.
Lemma qsum_perm a b : Permutation a b -> qsum a = qsum b.
Proof. induction 1; cbn [qsum]; try congruence. ring. Qed.
Lemma climb_app a b : climb (a ++ b) = climb a + climb b.
Proof. unfold climb. rewrite map_app. apply qsum_app. Qed.
Lemma climb_perm a b : Permutation a b -> climb a = climb b.
Proof. intros H. apply qsum_perm, Permutation_map, H. Qed.
Lemma qsum_neg l : (forall v, In v l -> v <= 0) -> qsum l <= 0.
Proof.
  induction l as [|v l IH]; intros H; cbn [qsum]; [apply Qcle_refl|]. pose proof (H v (or_introl eq_refl)) as H1.
  specialize (IH (fun w Hw => H w (or_intror Hw))). clear - H1 IH. qcl.
Qed.
Lemma qsum_pos l : (forall v, In v l -> 0 <= v) -> 0 <= qsum l.
Proof.
  induction l as [|v l IH]; intros H; cbn [qsum]; [apply Qcle_refl|]. pose proof (H v (or_introl eq_refl)) as H1.
  specialize (IH (fun w Hw => H w (or_intror Hw))). clear - H1 IH. qcl.
Qed.
Lemma climb_neg l : (forall v, In v l -> v <= 0) -> climb l = 0.
Proof.
  unfold climb. induction l as [|v l IH]; intros H; cbn [map qsum]; [reflexivity|]. rewrite (positive_neg v) by (apply H; left; reflexivity).
  rewrite IH by (intros w Hw; apply H; right; exact Hw). ring.
Qed.
Lemma climb_pos l : (forall v, In v l -> 0 <= v) -> climb l = qsum l.
Proof.
  unfold climb. induction l as [|v l IH]; intros H; cbn [map qsum]; [reflexivity|]. rewrite (positive_pos v) by (apply H; left; reflexivity).
  rewrite IH by (intros w Hw; apply H; right; exact Hw). reflexivity.
Qed.
Lemma befores_app s a b : befores s (a ++ b) = befores s a ++ befores (s + qsum a) b.
Proof.
  revert s. induction a as [|v a IH]; intros s; cbn [app befores qsum]; [f_equal; ring|]. rewrite IH. do 3 f_equal. ring.
Qed.
Lemma befores_down a : (forall v, In v a -> v <= 0) -> forall s t, In t (befores s a) -> s + qsum a <= t /\ t <= s.
Proof.
  induction a as [|v a IH]; intros H s t Ht; cbn [befores qsum] in *; [destruct Ht|].
  pose proof (H v (or_introl eq_refl)) as H1. pose proof (qsum_neg a (fun w Hw => H w (or_intror Hw))) as H2.
  destruct Ht as [<-|Ht]; [split; [clear - H1 H2; qcl|apply Qcle_refl]|].
  destruct (IH (fun w Hw => H w (or_intror Hw)) _ _ Ht) as (H3 & H4). clear - H1 H3 H4. split; qcl.
Qed.
Lemma befores_up a : (forall v, In v a -> 0 <= v) -> forall s t, In t (befores s a) -> s <= t /\ t <= s + qsum a.
Proof.
  induction a as [|v a IH]; intros H s t Ht; cbn [befores qsum] in *; [destruct Ht|].
  pose proof (H v (or_introl eq_refl)) as H1. pose proof (qsum_pos a (fun w Hw => H w (or_intror Hw))) as H2.
  destruct Ht as [<-|Ht]; [split; [apply Qcle_refl|clear - H1 H2; qcl]|].
  destruct (IH (fun w Hw => H w (or_intror Hw)) _ _ Ht) as (H3 & H4). clear - H1 H3 H4. split; qcl.
Qed.
(** The sum after a prefix, if all steps lead back to the start. *)
Lemma befores_prefix a b : qsum (a ++ b) = 0 -> a ++ b <> [] -> In (qsum a) (befores 0 (a ++ b)).
Proof.
  intros H N. destruct b as [|v b].
  - rewrite app_nil_r in *. rewrite H. destruct a; [contradiction|]. left. reflexivity.
  - rewrite befores_app. apply in_or_app. right. cbn [befores]. left. ring.
Qed.

(** Down, up, and down again. *)
Definition down_up_down (l : list Qc) : Prop :=
  exists n p m, l = n ++ p ++ m /\ (forall v, In v n -> v <= 0) /\ (forall v, In v p -> 0 <= v) /\ (forall v, In v m -> v <= 0).
Lemma down_up_down_range l : down_up_down l -> l <> [] -> qsum l = 0 ->
  exists b, In b (befores 0 l) /\ In (b + climb l) (befores 0 l) /\ forall t, In t (befores 0 l) -> b <= t /\ t <= b + climb l.
Proof.
  intros (n & p & m & -> & Hn & Hp & Hm) Ne Hs. exists (qsum n). rewrite !climb_app, (climb_neg n Hn), (climb_neg m Hm), (climb_pos p Hp).
  pose proof (qsum_neg n Hn) as N. pose proof (qsum_pos p Hp) as P. pose proof (qsum_neg m Hm) as M.
  assert (Z : qsum n + (qsum p + qsum m) = 0) by (rewrite <- Hs, !qsum_app; reflexivity).
  split; [apply befores_prefix; assumption|]. split.
  - replace (qsum n + (0 + (qsum p + 0))) with (qsum (n ++ p)) by (rewrite qsum_app; ring). rewrite app_assoc in *. apply befores_prefix; assumption.
  - intros t Ht. rewrite !befores_app in Ht. apply in_app_or in Ht. destruct Ht as [Ht|Ht]; [|apply in_app_or in Ht; destruct Ht as [Ht|Ht]].
    + destruct (befores_down n Hn _ _ Ht) as (A & B). clear - A B N P M Z. split; qcl.
    + destruct (befores_up p Hp _ _ Ht) as (A & B). clear - A B N P M Z. split; qcl.
    + destruct (befores_down m Hm _ _ Ht) as (A & B). clear - A B N P M Z. split; qcl.
Qed.

(** ** The steps are so ordered by the angle. *)
Lemma sorted_map {A B} (R : A -> A -> Prop) (S : B -> B -> Prop) (f : A -> B) l :
  (forall x y, In x l -> In y l -> R x y -> S (f x) (f y)) -> StronglySorted R l -> StronglySorted S (map f l).
Proof.
  intros H Hs. induction Hs as [|x l Hs IH Hf]; cbn [map]; constructor.
  - apply IH. intros a b Ia Ib. apply H; right; assumption.
  - apply Forall_forall. intros y Hy. apply in_map_iff in Hy. destruct Hy as (a & <- & Ia). rewrite Forall_forall in Hf.
    apply H; [left; reflexivity|right; exact Ia|apply Hf, Ia].
Qed.
Lemma split_down_up l : StronglySorted (fun a b => ~ (0 < a /\ b < 0)) l ->
  exists n p, l = n ++ p /\ (forall v, In v n -> v <= 0) /\ (forall v, In v p -> 0 <= v).
Proof.
  intros Hs. induction Hs as [|a l Hs IH Hf]; [exists [], []; repeat split; intros v []|].
  destruct (Qclt_le_dec 0 a) as [Ha|Ha].
  - exists [], (a :: l). split; [reflexivity|]. split; [intros v []|]. rewrite Forall_forall in Hf.
    intros v [<-|Hv]; [apply Qclt_le_weak, Ha|]. apply Qcnot_lt_le. intros G. apply (Hf v Hv). auto.
  - destruct IH as (n & p & -> & Hn & Hp). exists (a :: n), p. split; [reflexivity|]. split; [|exact Hp]. intros v [<-|Hv]; auto.
Qed.
Lemma split_up_down l : StronglySorted (fun a b => ~ (a < 0 /\ 0 < b)) l ->
  exists p n, l = p ++ n /\ (forall v, In v p -> 0 <= v) /\ (forall v, In v n -> v <= 0).
Proof.
  intros Hs. induction Hs as [|a l Hs IH Hf]; [exists [], []; repeat split; intros v []|].
  destruct (Qclt_le_dec a 0) as [Ha|Ha].
  - exists [], (a :: l). split; [reflexivity|]. split; [intros v []|]. rewrite Forall_forall in Hf.
    intros v [<-|Hv]; [apply Qclt_le_weak, Ha|]. apply Qcnot_lt_le. intros G. apply (Hf v Hv). auto.
  - destruct IH as (p & n & -> & Hp & Hn). exists (a :: p), n. split; [reflexivity|]. split; [|exact Hn]. intros v [<-|Hv]; auto.
Qed.
Definition turned (v w : Qc * Qc) : Prop :=
  ~ (0 < snd v /\ snd w < 0) /\ (0 < fst v -> fst w < 0 -> 0 <= snd w) /\ (fst v < 0 -> 0 <= snd v -> ~ 0 < fst w).
Lemma turned_ordinates l : StronglySorted turned l -> down_up_down (map snd l).
Proof.
  intros H. destruct (split_down_up (map snd l)) as (n & p & E & Hn & Hp).
  - eapply sorted_map; [|exact H]. intros x y _ _ (T & _). exact T.
  - exists n, p, []. rewrite app_nil_r. repeat split; auto. intros v [].
Qed.
Lemma turned_abscissas l : StronglySorted turned l -> down_up_down (map fst l).
Proof.
  intros H. induction H as [|v l Hs IH Hf]; [exists [], [], []; repeat split; intros v []|].
  destruct (Qclt_le_dec 0 (fst v)) as [Hv|Hv].
  - destruct (split_up_down (map fst l)) as (p & n & E & Hp & Hn).
    + eapply sorted_map; [|exact Hs]. intros x y Ix Iy (_ & _ & T) (Nx & Py). rewrite Forall_forall in Hf.
      apply (T Nx); [|exact Py]. destruct (Hf x Ix) as (_ & T' & _). apply T'; assumption.
    + exists [], (fst v :: p), n. cbn [map app]. rewrite E. split; [reflexivity|]. split; [intros w []|]. split; [|exact Hn].
      intros w [<-|Hw]; [apply Qclt_le_weak, Hv|auto].
  - destruct IH as (n & p & m & E & Hn & Hp & Hm). exists (fst v :: n), p, m. cbn [map]. rewrite E. split; [reflexivity|].
    split; [intros w [<-|Hw]; auto|]. split; assumption.
Qed.

Section Angles.
Context (ctx : context) (directions : orders_directions ctx) (sides : tells_sides ctx).
Lemma angle_turned x y x' y' a a' : ctx_atan2 ctx y x = Ok a -> ctx_atan2 ctx y' x' = Ok a' -> a <= a' -> turned (x, y) (x', y').
Proof.
  intros E E' H. unfold turned. cbn [fst snd]. destruct (Qc_eq_dec a a') as [<-|N].
  - destruct (sides x y x' y' a E E') as (S1 & S2). destruct (sides x' y' x y a E' E) as (T1 & T2). split; [tauto|]. split; [intros P Q; exfalso; auto|intros P _ Q; auto].
  - assert (L : a < a') by (apply Qcle_lt_or_eq in H; destruct H; [assumption|contradiction]).
    pose proof (directions x y x' y' a a' E E' L) as D. clear - D. unfold smaller_direction in D.
    split; [|split].
    + intros (P & Q). destruct D as [(A & B)|[(A & B & _)|(A & B & _)]]; [clear - P A|clear - P A|clear - Q B]; qcl.
    + intros P Q. destruct D as [(A & B)|[(A & B & K)|(A & B & _)]]; [exact B| |exact B]. exfalso. clear - P Q A B K. qcn.
    + intros P Q R. destruct D as [(A & B)|[(A & B & _)|(A & B & [K|(K & K' & _)])]]; [clear - Q A; qcl|clear - Q A; qcl|clear - P Q R B K; qcn|clear - P K'; qcl].
Qed.
Lemma keyed_turned l keyed : mapM (fun v : Qc * Qc => let* a := ctx_atan2 ctx (snd v) (fst v) in Ok (a, v)) l = Ok keyed ->
  Permutation l (map snd (isort (fun a b : Qc * (Qc * Qc) => qleb (fst a) (fst b)) keyed)) /\
  StronglySorted turned (map snd (isort (fun a b : Qc * (Qc * Qc) => qleb (fst a) (fst b)) keyed)).
Proof.
  intros H. apply mapM_ok in H.
  assert (K : map snd keyed = l /\ forall k, In k keyed -> ctx_atan2 ctx (snd (snd k)) (fst (snd k)) = Ok (fst k)).
  { induction H as [|v k l keyed Hv _ IH]; [split; [reflexivity|intros k []]|]. destruct IH as (IH1 & IH2).
    destruct (ctx_atan2 ctx (snd v) (fst v)) as [a|] eqn:Ea; [|discriminate]. cbn [rbind] in Hv. injection Hv as <-.
    cbn [map snd]. rewrite IH1. split; [reflexivity|]. intros k [<-|Hk]; [exact Ea|auto]. }
  destruct K as (<- & K). split; [apply Permutation_map, isort_perm|].
  eapply sorted_map; [|apply isort_sorted].
  - intros (a & (x & y)) (a' & (x' & y')) I1 I2 L. apply isort_in, K in I1. apply isort_in, K in I2. cbn [fst snd] in *.
    apply (angle_turned x y x' y' a a' I1 I2). apply qleb_le, L.
  - intros u v. apply qleb_total.
  - intros u v w. apply qleb_trans.
Qed.
End Angles.

(** ** The steps. *)
Lemma vectors_sum cs : forall bits lo hi top, qsum (vectors_coordinates cs bits lo hi top) = hi - lo.
Proof.
  induction cs as [|c cs IH]; intros bits lo hi top; cbn [vectors_coordinates qsum]; [ring|].
  destruct (hd true bits); cbn [qsum]; rewrite IH; ring.
Qed.
Lemma vectors_climb cs : forall bits lo hi top, StronglySorted Qcle (cs ++ [top]) -> (forall c, In c (cs ++ [top]) -> lo <= c /\ hi <= c) ->
  climb (vectors_coordinates cs bits lo hi top) = top - lo.
Proof.
  induction cs as [|c cs IH]; intros bits lo hi top Hs Hb; cbn [vectors_coordinates app] in *.
  - unfold climb. cbn [map qsum]. destruct (Hb top (or_introl eq_refl)) as (H1 & H2).
    rewrite positive_pos by (clear - H1; qcl). rewrite positive_neg by (clear - H2; qcl). ring.
  - inversion Hs as [|? ? Hs' Hf]; subst. rewrite Forall_forall in Hf. destruct (Hb c (or_introl eq_refl)) as (H1 & H2).
    destruct (hd true bits); unfold climb; cbn [map qsum].
    + rewrite positive_pos by (clear - H1; qcl). fold (climb (vectors_coordinates cs (tl bits) c hi top)). rewrite IH; [ring|exact Hs'|].
      intros d Hd. split; [apply Hf, Hd|]. apply Hb. right. exact Hd.
    + rewrite positive_neg by (clear - H2; qcl). fold (climb (vectors_coordinates cs (tl bits) lo c top)). rewrite IH; [ring|exact Hs'|].
      intros d Hd. split; [|apply Hf, Hd]. apply Hb. right. exact Hd.
Qed.
Lemma vectors_length cs : forall bits lo hi top, length (vectors_coordinates cs bits lo hi top) = S (S (length cs)).
Proof. induction cs as [|c cs IH]; intros bits lo hi top; cbn [vectors_coordinates]; [reflexivity|]. destruct (hd true bits); cbn [length]; rewrite IH; reflexivity. Qed.
Lemma split_ends_eq l a m b : split_ends l = Some (a, m, b) -> l = a :: m ++ [b].
Proof.
  destruct l as [|x [|y l]]; cbn [split_ends]; try discriminate. intros H. injection H as <- <- <-. f_equal. exact (app_removelast_last y (l := y :: l) ltac:(discriminate)).
Qed.
Lemma steps_spec l a m b bits : split_ends (isort qleb l) = Some (a, m, b) ->
  let steps := to_vectors_coordinates m bits a b in
  length steps = length l /\ qsum steps = 0 /\ climb steps = b - a /\ In a l /\ In b l /\ a <= b.
Proof.
  intros H. pose proof (split_ends_in _ _ _ _ H) as (Ia & Ib). rewrite isort_in in Ia, Ib. apply split_ends_eq in H.
  pose proof (isort_sorted qleb qleb_total qleb_trans l) as S. rewrite H in S.
  assert (S' : StronglySorted Qcle (a :: m ++ [b])).
  { rewrite <- (map_id (a :: m ++ [b])). eapply sorted_map; [|exact S]. intros x y _ _ L. apply qleb_le, L. }
  inversion S' as [|? ? S1 F]; subst. rewrite Forall_forall in F. cbv zeta. unfold to_vectors_coordinates.
  split; [rewrite vectors_length, <- (isort_length qleb l), H; cbn [length]; rewrite app_length; cbn [length]; lia|].
  split; [rewrite vectors_sum; ring|]. split; [apply vectors_climb; [exact S1|intros c Hc; split; apply F, Hc]|].
  split; [exact Ia|]. split; [exact Ib|]. apply F, in_or_app. right. left. reflexivity.
Qed.

(** ** The walk. *)
Lemma afters_in l : forall s t, In t (afters s l) -> In t (befores s l) \/ t = s + qsum l.
Proof.
  induction l as [|v l IH]; intros s t H; cbn [afters befores qsum] in *; [destruct H|]. destruct H as [<-|H].
  - destruct l; [right; cbn [qsum]; ring|left; right; left; reflexivity].
  - destruct (IH _ _ H) as [K|K]; [left; right; exact K|right; rewrite K; ring].
Qed.
Lemma befores_in l : forall s t, In t (befores s l) -> t = s \/ In t (afters s l).
Proof.
  induction l as [|v l IH]; intros s t H; cbn [afters befores] in *; [destruct H|]. destruct H as [<-|H]; [left; reflexivity|].
  right. destruct (IH _ _ H) as [->|K]; [left; reflexivity|right; exact K].
Qed.
Lemma walk_spec vs : forall x y mx my pairs nx ny, walk vs x y mx my = (pairs, (nx, ny)) ->
  map fst pairs = befores x (map fst vs) /\ map snd pairs = befores y (map snd vs) /\
  (nx = mx \/ In nx (afters x (map fst vs))) /\ nx <= mx /\ (forall t, In t (afters x (map fst vs)) -> nx <= t) /\
  (ny = my \/ In ny (afters y (map snd vs))) /\ ny <= my /\ (forall t, In t (afters y (map snd vs)) -> ny <= t).
Proof.
  induction vs as [|(vx & vy) vs IH]; intros x y mx my pairs nx ny H; cbn [walk] in H.
  - injection H as <- <- <-. cbn [map befores afters]. repeat split; auto; try apply Qcle_refl; intros t [].
  - destruct (walk vs (x + vx) (y + vy) (qmin mx (x + vx)) (qmin my (y + vy))) as (q & (kx & ky)) eqn:Ew. injection H as <- <- <-.
    destruct (IH _ _ _ _ _ _ _ Ew) as (E1 & E2 & X1 & X2 & X3 & Y1 & Y2 & Y3). cbn [map fst snd befores afters]. rewrite E1, E2.
    pose proof (qmin_le_l mx (x + vx)) as A1. pose proof (qmin_le_r mx (x + vx)) as A2. pose proof (qmin_le_l my (y + vy)) as B1. pose proof (qmin_le_r my (y + vy)) as B2.
    split; [reflexivity|]. split; [reflexivity|]. split; [|split; [|split; [|split; [|split]]]].
    + destruct X1 as [->|X1]; [|right; right; exact X1]. destruct (qmin_cases mx (x + vx)) as [->| ->]; [left; reflexivity|right; left; reflexivity].
    + eapply Qcle_trans; eassumption.
    + intros t [<-|Ht]; [eapply Qcle_trans; eassumption|auto].
    + destruct Y1 as [->|Y1]; [|right; right; exact Y1]. destruct (qmin_cases my (y + vy)) as [->| ->]; [left; reflexivity|right; left; reflexivity].
    + eapply Qcle_trans; eassumption.
    + intros t [<-|Ht]; [eapply Qcle_trans; eassumption|auto].
Qed.
(** The least of the sums is the least sum before a step. *)
Lemma least_before l m b : qsum l = 0 -> l <> [] -> (m = 0 \/ In m (afters 0 l)) -> m <= 0 -> (forall t, In t (afters 0 l) -> m <= t) ->
  In b (befores 0 l) -> (forall t, In t (befores 0 l) -> b <= t) -> m = b.
Proof.
  intros Z N Hm M0 Ma Hb Bb. apply Qcle_antisym.
  - destruct (befores_in _ _ _ Hb) as [->|K]; [exact M0|apply Ma, K].
  - assert (I0 : In 0 (befores 0 l)) by (destruct l; [contradiction|left; reflexivity]).
    destruct Hm as [->|Hm]; [apply Bb, I0|]. destruct (afters_in _ _ _ Hm) as [K|K]; [apply Bb, K|].
    rewrite Z in K. replace (0 + 0) with (Q2Qc 0) in K by ring. rewrite K. apply Bb, I0.
Qed.
Lemma clamp_id x lo hi : lo <= x -> x <= hi -> qmin (qmax x lo) hi = x.
Proof.
  intros H1 H2. assert (E : qmax x lo = x).
  { destruct (qmax_cases x lo) as [E|E]; [exact E|]. rewrite E. apply Qcle_antisym; [exact H1|]. rewrite <- E. apply qmax_ge_l. }
  rewrite E. destruct (qmin_cases x hi) as [K|K]; [exact K|]. rewrite K. apply Qcle_antisym; [|exact H2]. rewrite <- K. apply qmin_le_l.
Qed.
Lemma map_fst_combine {A B} (a : list A) (b : list B) : length a = length b -> map fst (combine a b) = a.
Proof. revert b. induction a as [|x a IH]; intros [|y b] H; cbn in *; try discriminate; [reflexivity|]. f_equal. apply IH. lia. Qed.
Lemma map_snd_combine {A B} (a : list A) (b : list B) : length a = length b -> map snd (combine a b) = b.
Proof. revert b. induction a as [|x a IH]; intros [|y b] H; cbn in *; try discriminate; [reflexivity|]. f_equal. apply IH. lia. Qed.
(** The points of which the hull is taken have the bounds of the points given. *)
Definition bounds_of (f : point -> Qc) (points l : list point) : Prop :=
  exists lo hi, In lo (map f points) /\ In hi (map f points) /\ In lo (map f l) /\ In hi (map f l) /\ forall p, In p l -> lo <= f p /\ f p <= hi.
Lemma convex_sequence_bounds ctx points bx by_ sh vs : orders_directions ctx -> tells_sides ctx ->
  (forall l, length l = length points -> Permutation l (sh l)) ->
  to_convex_vertex_sequence ctx points bx by_ sh = Ok vs -> exists l, vs = ctx_hull ctx l /\ bounds_of px points l /\ bounds_of py points l.
Proof.
  intros D S Hsh. unfold to_convex_vertex_sequence.
  destruct (split_ends (isort qleb (map px points))) as [((x0, xm), x1)|] eqn:Ex; [|discriminate].
  destruct (split_ends (isort qleb (map py points))) as [((y0, ym), y1)|] eqn:Ey; [|discriminate].
  destruct (steps_spec _ _ _ _ bx Ex) as (Lx & Zx & Cx & Ix0 & Ix1 & Hx). destruct (steps_spec _ _ _ _ by_ Ey) as (Ly & Zy & Cy & Iy0 & Iy1 & Hy).
  cbv zeta. set (sx := to_vectors_coordinates xm bx x0 x1) in *. set (sy := to_vectors_coordinates ym by_ y0 y1) in *.
  destruct (mapM _ _) as [keyed|e] eqn:Ek; cbn [rbind]; [|discriminate]. destruct (keyed_turned ctx D S _ _ Ek) as (P & T).
  set (steps := map snd (isort _ keyed)) in *. destruct (walk steps 0 0 0 0) as (pairs & (mx & my)) eqn:Ew. intros H. injection H as <-.
  eexists. split; [reflexivity|].
  rewrite map_length in Lx, Ly. pose proof (Hsh sy Ly) as Psh.
  assert (Lc : length sx = length (sh sy)) by (rewrite <- (Permutation_length Psh); congruence).
  pose proof (Permutation_map fst P) as Px. rewrite map_fst_combine in Px by exact Lc.
  pose proof (Permutation_map snd P) as Py. rewrite map_snd_combine in Py by exact Lc.
  pose proof (perm_trans Psh Py) as Py'.
  destruct (walk_spec _ _ _ _ _ _ _ _ Ew) as (E1 & E2 & X1 & X2 & X3 & Y1 & Y2 & Y3).
  assert (Npts : length points <> 0%nat) by (intros Z; rewrite Z in *; destruct points; [destruct Ix0|discriminate Z]).
  assert (Key : forall s lo hi m l, Permutation s l -> down_up_down l -> length s <> 0%nat -> qsum s = 0 -> climb s = hi - lo -> lo <= hi ->
    (m = 0 \/ In m (afters 0 l)) -> m <= 0 -> (forall t, In t (afters 0 l) -> m <= t) ->
    (forall t, In t (befores 0 l) -> lo <= t + (lo - m) /\ t + (lo - m) <= hi) /\
    (exists t, In t (befores 0 l) /\ t + (lo - m) = lo) /\ (exists t, In t (befores 0 l) /\ t + (lo - m) = hi)).
  { intros s lo hi m l Pl Dl Ns Zs Cs Hlh M1 M2 M3. assert (Nl : l <> []) by (intros ->; apply Permutation_length in Pl; cbn in Pl; contradiction).
    assert (Zl : qsum l = 0) by (rewrite <- Zs; symmetry; apply qsum_perm, Pl).
    destruct (down_up_down_range l Dl Nl Zl) as (b & B1 & B2 & B3). rewrite <- (climb_perm _ _ Pl), Cs in B2, B3.
    assert (E : m = b) by (eapply least_before; try eassumption; intros t Ht; apply B3, Ht). subst m. split; [|split].
    - intros t Ht. destruct (B3 t Ht) as (G1 & G2). clear - G1 G2. split; qcl.
    - exists b. split; [exact B1|ring].
    - exists (b + (hi - lo)). split; [exact B2|ring]. }
  destruct (Key sx x0 x1 mx _ Px (turned_abscissas _ T) ltac:(congruence) Zx Cx Hx X1 X2 X3) as (KX & (tx0 & KX1 & KX2) & (tx1 & KX3 & KX4)).
  destruct (Key sy y0 y1 my _ Py' (turned_ordinates _ T) ltac:(congruence) Zy Cy Hy Y1 Y2 Y3) as (KY & (ty0 & KY1 & KY2) & (ty1 & KY3 & KY4)).
  rewrite <- E1 in KX, KX1, KX3. rewrite <- E2 in KY, KY1, KY3.
  assert (Cl : forall xy, In xy pairs -> qmin (qmax (fst xy + (x0 - mx)) x0) x1 = fst xy + (x0 - mx) /\ qmin (qmax (snd xy + (y0 - my)) y0) y1 = snd xy + (y0 - my)).
  { intros xy I. split; apply clamp_id; (apply KX || apply KY); apply in_map, I. }
  split.
  - exists x0, x1. split; [exact Ix0|]. split; [exact Ix1|]. rewrite map_map. cbn [px].
    split; [|split].
    + apply in_map_iff in KX1. destruct KX1 as (xy & <- & I). apply in_map_iff. exists xy. split; [|exact I]. rewrite (proj1 (Cl xy I)). exact KX2.
    + apply in_map_iff in KX3. destruct KX3 as (xy & <- & I). apply in_map_iff. exists xy. split; [|exact I]. rewrite (proj1 (Cl xy I)). exact KX4.
    + intros p Hp. apply in_map_iff in Hp. destruct Hp as (xy & <- & I). cbn [px]. rewrite (proj1 (Cl xy I)). apply KX, in_map, I.
  - exists y0, y1. split; [exact Iy0|]. split; [exact Iy1|]. rewrite map_map. cbn [py].
    split; [|split].
    + apply in_map_iff in KY1. destruct KY1 as (xy & <- & I). apply in_map_iff. exists xy. split; [|exact I]. rewrite (proj2 (Cl xy I)). exact KY2.
    + apply in_map_iff in KY3. destruct KY3 as (xy & <- & I). apply in_map_iff. exists xy. split; [|exact I]. rewrite (proj2 (Cl xy I)). exact KY4.
    + intros p Hp. apply in_map_iff in Hp. destruct Hp as (xy & <- & I). cbn [py]. rewrite (proj2 (Cl xy I)). apply KY, in_map, I.
Qed.
Lemma convex_sequence_kept ctx points bx by_ sh vs : orders_directions ctx -> tells_sides ctx ->
  (forall l, length l = length points -> Permutation l (sh l)) ->
  to_convex_vertex_sequence ctx points bx by_ sh = Ok vs ->
  exists l, vs = ctx_hull ctx l /\ forall f, f = px \/ f = py ->
    exists lo hi, In lo points /\ In hi points /\ (exists p, In p l /\ f p = f lo) /\ (exists p, In p l /\ f p = f hi) /\
      forall p, In p l -> f lo <= f p /\ f p <= f hi.
Proof.
  intros D S Hsh H. destruct (convex_sequence_bounds ctx points bx by_ sh vs D S Hsh H) as (l & E & Bx & By). exists l. split; [exact E|].
  assert (K : forall f, bounds_of f points l -> exists lo hi, In lo points /\ In hi points /\ (exists p, In p l /\ f p = f lo) /\ (exists p, In p l /\ f p = f hi) /\
      forall p, In p l -> f lo <= f p /\ f p <= f hi).
  { intros f (lo & hi & I1 & I2 & I3 & I4 & Hb). apply in_map_iff in I1, I2, I3, I4.
    destruct I1 as (q1 & <- & I1). destruct I2 as (q2 & <- & I2). destruct I3 as (p1 & E3 & I3). destruct I4 as (p2 & E4 & I4).
    exists q1, q2. repeat split; eauto; apply Hb; assumption. }
  intros f [->| ->]; apply K; assumption.
Qed.

(** ** The hull reaches the bounds. *)
Lemma hull_extreme l h (f : point -> Qc) (a b : Qc) : (forall p, f p = a * px p + b * py p) -> is_hull l h -> (3 <= length h)%nat ->
  forall p, In p l -> exists v, In v h /\ f v <= f p.
Proof.
  intros Ef (Nd & Hi & Hr & Hc) L p Hp. specialize (Hc L).
  assert (M : forall k : list point, k <> [] -> exists v, In v k /\ forall w, In w k -> f v <= f w).
  { induction k as [|x k IH]; intros N; [contradiction|]. destruct k as [|y k].
    - exists x. split; [left; reflexivity|]. intros w [<-|[]]. apply Qcle_refl.
    - destruct (IH ltac:(discriminate)) as (v & Iv & Hv). destruct (Qclt_le_dec (f x) (f v)) as [G|G].
      + exists x. split; [left; reflexivity|]. intros w [<-|Hw]; [apply Qcle_refl|]. eapply Qcle_trans; [apply Qclt_le_weak, G|apply Hv, Hw].
      + exists v. split; [right; exact Iv|]. intros w [<-|Hw]; [exact G|apply Hv, Hw]. }
  destruct (M h) as (v & Iv & Hv); [intros ->; cbn in L; lia|]. exists v. split; [exact Iv|].
  apply Qcnot_lt_le. intros G.
  destruct (In_nth_error _ _ Iv) as (i & Ei). assert (Hi' : (i < length h)%nat) by (apply nth_error_Some; congruence).
  set (n := length h) in *. set (j := ((i + (n - 1)) mod n)%nat).
  assert (Hj : (j < n)%nat) by (apply Nat.mod_upper_bound; lia).
  assert (Sj : (S j mod n = i)%nat).
  { unfold j. rewrite <- Nat.add_1_r, Nat.add_mod_idemp_l by lia. replace (i + (n - 1) + 1)%nat with (i + 1 * n)%nat by lia. rewrite Nat.mod_add by lia. apply Nat.mod_small, Hi'. }
  destruct (nth_error h j) as [u|] eqn:Ej; [|apply nth_error_None in Ej; unfold n in Hj; lia].
  assert (Eu : contour_edge h u v) by (exists j; split; [exact Ej|]; fold n; rewrite Sj; exact Ei).
  destruct (turn_of_edge h u v ltac:(lia) Eu) as (w & Hw). pose proof (convex_turns h Hc u v w Hw) as T.
  assert (Ew : contour_edge h v w).
  { destruct Hw as (k & K1 & K2 & K3). exists (S k mod n)%nat. split; [exact K2|]. rewrite <- K3. f_equal. fold n.
    rewrite <- (Nat.add_1_r (S k mod n)), Nat.add_mod_idemp_l, Nat.add_1_r by lia. reflexivity. }
  pose proof (Hr u v Eu p Hp) as R1. pose proof (Hr v w Ew p Hp) as R2.
  destruct (edge_in _ _ _ Eu) as (Iu & _). destruct (edge_in _ _ _ Ew) as (_ & Iw).
  pose proof (Hv u Iu) as Fu. pose proof (Hv w Iw) as Fw.
  assert (C1 : 0 <= cross u v p) by (apply Qcnot_lt_le; exact R1). assert (C2 : 0 <= cross v w p) by (apply Qcnot_lt_le; exact R2).
  unfold left_turn in T.
  assert (Id : (f p - f v) * cross u v w = (f w - f v) * cross u v p + (f u - f v) * cross v w p) by (rewrite !Ef; unfold cross; ring).
  clear - Id T C1 C2 Fu Fw G.
  assert (A1 : 0 <= (f w - f v) * cross u v p) by (clear - C1 Fw; qcn). assert (A2 : 0 <= (f u - f v) * cross v w p) by (clear - C2 Fu; qcn).
  assert (A3 : (f p - f v) * cross u v w < 0) by (clear - T G; qcn). rewrite Id in A3. clear - A1 A2 A3. qcl.
Qed.

Lemma shuffle_permutation perm n l : Permutation (seq 0 n) perm -> length l = n -> Permutation l (shuffle_by perm l).
Proof.
  intros P L. unfold shuffle_by. apply perm_trans with (map (fun i => nth i l (Q2Qc 0)) (seq 0 n)); [|apply Permutation_map, P].
  rewrite <- L. clear. induction l as [|x l IH]; [reflexivity|]. cbn [length seq map nth]. rewrite <- seq_shift, map_map. cbn [nth]. constructor. exact IH.
Qed.
Lemma bounds_lower f points l h (s : scalars) (a b : Qc) : (forall p, f p = a * px p + b * py p) -> is_hull l h -> (3 <= length h)%nat ->
  bounds_of f points l -> (forall p, In p points -> drawable s (f p)) ->
  (exists v, In v h /\ drawable s (f v) /\ forall w, In w h -> f v <= f w) /\ (exists v, In v h /\ drawable s (f v) /\ forall w, In w h -> f w <= f v).
Proof.
  intros Ef Hh L (lo & hi & I1 & I2 & I3 & I4 & Hb) Hd.
  apply in_map_iff in I1, I2, I3, I4. destruct I1 as (q1 & E1 & I1). destruct I2 as (q2 & E2 & I2). destruct I3 as (p1 & E3 & I3). destruct I4 as (p2 & E4 & I4).
  pose proof (proj1 (proj2 Hh)) as Inc. split.
  - destruct (hull_extreme l h f a b Ef Hh L p1 I3) as (v & Iv & Hv). exists v. split; [exact Iv|].
    assert (E : f v = lo) by (apply Qcle_antisym; [rewrite <- E3; exact Hv|apply Hb, Inc, Iv]). rewrite E. split; [rewrite <- E1; apply Hd, I1|].
    intros w Hw. apply Hb, Inc, Hw.
  - destruct (hull_extreme l h (fun p => - f p) (- a) (- b) ltac:(intros p; cbv beta; rewrite Ef; ring) Hh L p2 I4) as (v & Iv & Hv). cbv beta in Hv. exists v. split; [exact Iv|].
    assert (E : f v = hi) by (apply Qcle_antisym; [apply Hb, Inc, Iv|rewrite <- E4; clear - Hv; qcl]). rewrite E. split; [rewrite <- E2; apply Hd, I2|].
    intros w Hw. apply Hb, Inc, Hw.
Qed.

(** ** The strategy. *)
Lemma finite_bounds xs ys vs : vs <> [] -> (forall p, In p vs -> drawable xs (px p) /\ drawable (ordinates xs ys) (py p)) -> drawable_bounds xs ys vs.
Proof.
  intros N H.
  assert (M : forall (f : point -> Qc) (k : list point), k <> [] -> exists v, In v k /\ forall w, In w k -> f v <= f w).
  { intros f. induction k as [|x k IH]; intros Nk; [contradiction|]. destruct k as [|y k].
    - exists x. split; [left; reflexivity|]. intros w [<-|[]]. apply Qcle_refl.
    - destruct (IH ltac:(discriminate)) as (v & Iv & Hv). destruct (Qclt_le_dec (f x) (f v)) as [G|G].
      + exists x. split; [left; reflexivity|]. intros w [<-|Hw]; [apply Qcle_refl|]. eapply Qcle_trans; [apply Qclt_le_weak, G|apply Hv, Hw].
      + exists v. split; [right; exact Iv|]. intros w [<-|Hw]; [exact G|apply Hv, Hw]. }
  split; [|split; [|split]].
  - destruct (M px vs N) as (v & Iv & Hv). exists v. split; [exact Iv|]. split; [apply H, Iv|exact Hv].
  - destruct (M (fun p => - px p) vs N) as (v & Iv & Hv). exists v. split; [exact Iv|]. split; [apply H, Iv|]. intros w Hw. specialize (Hv w Hw). cbv beta in Hv. clear - Hv. qcl.
  - destruct (M py vs N) as (v & Iv & Hv). exists v. split; [exact Iv|]. split; [apply H, Iv|exact Hv].
  - destruct (M (fun p => - py p) vs N) as (v & Iv & Hv). exists v. split; [exact Iv|]. split; [apply H, Iv|]. intros w Hw. specialize (Hv w Hw). cbv beta in Hv. clear - Hv. qcl.
Qed.
Lemma convex_strategy_bounds ctx xs ys mn mx vs : (forall l, is_hull l (ctx_hull ctx l)) -> orders_directions ctx -> tells_sides ctx -> (3 <= mn)%Z ->
  generates (to_convex_vertex_sequence_strategy ctx xs ys mn mx) vs -> drawable_bounds xs ys vs.
Proof.
  intros Hh D S Hm H.
  assert (Ht : generates (to_triangular_vertex_sequence_strategy xs ys) vs -> drawable_bounds xs ys vs).
  { intros G. apply gen_triangle in G. destruct G as (a & b & c & -> & _ & Da & Db & Dc). apply finite_bounds; [discriminate|].
    intros p [<-|[<-|[<-|[]]]]; assumption. }
  assert (Hrec : generates (to_rectangular_vertex_sequence_strategy xs ys) vs -> drawable_bounds xs ys vs).
  { intros G. apply gen_rectangle in G. destruct G as (x1 & x2 & y1 & y2 & -> & _ & _ & D1 & D2 & D3 & D4). apply finite_bounds; [discriminate|].
    intros p [<-|[<-|[<-|[<-|[]]]]]; cbn [px py]; split; assumption. }
  unfold to_convex_vertex_sequence_strategy in H. destruct (match mx with None => false | Some m => (m <? CONCAVE)%Z end); [apply Ht, H|]. cbv zeta in H.
  match type of H with context [pfilter ?f ?p] => set (r := pfilter f p) in H end.
  assert (Hres : generates r vs -> drawable_bounds xs ys vs).
  { clear H. intros H. apply gen_pfilter in H. destruct H as (H & Hs). apply size_valid in Hs.
    apply gen_bind in H. destruct H as (points & Hp & H). apply gen_bind in H. destruct H as (bx & _ & H).
    apply gen_bind in H. destruct H as (by_ & _ & H). apply gen_bind in H. destruct H as (perm & Pp & H). apply gen_permutations in Pp.
    apply gen_lift in H. destruct (convex_sequence_bounds ctx points bx by_ _ vs D S (fun l El => shuffle_permutation perm _ l Pp El) H) as (l & -> & Bx & By).
    apply grid_sound in Hp. assert (L : (3 <= length (ctx_hull ctx l))%nat) by (destruct Hs as (Hs & _); unfold lenZ in Hs; lia).
    destruct (bounds_lower px points l (ctx_hull ctx l) xs 1 0 ltac:(intros p; ring) (Hh l) L Bx) as (B1 & B2); [intros p Ip; apply (grid_drawable _ _ _ _ _ Hp p Ip)|].
    destruct (bounds_lower py points l (ctx_hull ctx l) (ordinates xs ys) 0 1 ltac:(intros p; ring) (Hh l) L By) as (B3 & B4); [intros p Ip; apply (grid_drawable _ _ _ _ _ Hp p Ip)|].
    split; [exact B1|]. split; [exact B2|]. split; assumption. }
  assert (Hr2 : generates (if (mn <=? 4)%Z then alt (to_rectangular_vertex_sequence_strategy xs ys) r else r) vs -> drawable_bounds xs ys vs).
  { destruct (mn <=? 4)%Z; [|exact Hres]. intros G. apply gen_alt in G. destruct G as [G|G]; auto. }
  destruct (mn =? 3)%Z; [|apply Hr2, H]. apply gen_alt in H. destruct H as [H|H]; auto.
Qed.
Lemma convex_contours_bounds ctx xs ys mn mx w s vs : (forall l, is_hull l (ctx_hull ctx l)) -> orders_directions ctx -> tells_sides ctx ->
  convex_contours ctx xs ys mn mx = Ok (w, s) -> generates s vs -> drawable_bounds xs ys vs.
Proof.
  intros Hh D S H. unfold convex_contours in H. validate; try discriminate. injection H as _ <-. apply convex_strategy_bounds; try assumption. unfold CONVEX, MIN_CONTOUR_SIZE in *. lia.
Qed.

Lemma reference_sides : tells_sides reference.
Proof.
  intros x y x' y' a E E'. change (ref_atan2 y x = Ok a) in E. change (ref_atan2 y' x' = Ok a) in E'.
  rewrite ref_atan2_psi in E, E'. injection E as E. injection E' as E'.
  assert (K : forall x y x' y', psi x y = a -> psi x' y' = a -> (x < 0 -> 0 < x' -> False) /\ (y < 0 -> 0 < y' -> False)).
  { clear. intros x y x' y' E E'.
    assert (D : forall a b : Qc, (a = 0 /\ b = 0) \/ (a <> 0 \/ b <> 0)).
    { intros u v. destruct (Qc_eq_dec u 0), (Qc_eq_dec v 0); auto. }
    destruct (D x y) as [(-> & ->)|N]; [split; intros G; exfalso; revert G; apply Qlt_irrefl|].
    destruct (D x' y') as [(-> & ->)|N']; [split; intros _ G; revert G; apply Qlt_irrefl|].
    destruct (psi_quadrant x y N) as (r & X & Y & R & Ex & Ey & Q). destruct (psi_quadrant x' y' N') as (r' & X' & Y' & R' & Ex' & Ey' & Q').
    rewrite E in Q. rewrite E' in Q'. destruct (scaled_sign r X R) as (_ & X2 & _). destruct (scaled_sign r' X' R') as (X1 & _).
    destruct (scaled_sign r Y R) as (_ & Y2 & _). destruct (scaled_sign r' Y' R') as (Y1 & _). rewrite <- Ex in X2. rewrite <- Ey in Y2. rewrite <- Ex' in X1. rewrite <- Ey' in Y1.
    rewrite X2, X1, Y2, Y1. clear - Q Q'.
    split; intros G G'; destruct Q as [(A & B & F & F')|[(A & B & F & F')|[(A & B & F & F')|(A & B & F & F')]]];
      destruct Q' as [(A1 & B1 & F1 & F1')|[(A1 & B1 & F1 & F1')|[(A1 & B1 & F1 & F1')|(A1 & B1 & F1 & F1')]]]; qcl. }
  destruct (K x y x' y' E E') as (K1 & K2). split; intros (G1 & G2); auto.
Qed.

Lemma contours_bounds ctx xs ys mn mx w s vs : (forall l, is_hull l (ctx_hull ctx l)) -> orders_directions ctx -> tells_sides ctx ->
  contours ctx xs ys mn mx = Ok (w, s) -> generates s vs -> drawable_bounds xs ys vs.
Proof.
  intros Hh D S H. unfold contours in H. validate; try discriminate. injection H as _ <-. change MIN_CONTOUR_SIZE with 3%Z in *.
  intros H. unfold to_vertex_sequence_strategy in H. apply gen_alt in H. destruct H as [H|H]; [eapply convex_strategy_bounds; [exact Hh|exact D|exact S| |exact H]; lia|].
  apply vertex_sequences_spec in H; [|lia]. destruct H as ((H & _) & Hd & _).
  apply finite_bounds; [intros ->; cbn in H; lia|]. exact Hd.
Qed.
