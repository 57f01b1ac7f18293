(** The merged map is a Delaunay triangulation of all the points. *)
From Coq Require Import List Lia.
From Verif Require Import Base Geometry Spec QcTac QcFast GeomProofs DelGeo DelCyc DelMap DelFan DelOps DelMir DelCand DelMerge DelEnd DelClaim.
Import ListNotations.
Open Scope Qc_scope.

Definition swapm (b : point * point) : point * point := (mir (snd b), mir (fst b)).
Lemma chain_mir S S' L R (E : point -> point -> Prop) bs : (forall v a, E v a -> E a v) ->
  (forall q, In q (List.map mir S) <-> In q S') -> chain S L R E bs ->
  chain S' (List.map mir R) (List.map mir L) (fun v a => E (mir v) (mir a)) (List.map swapm bs).
Proof.
  intros Sy HS H. induction H as [l r Hl Hr Hlr Bot|l r c t Hch IH Em Hc Hlc Hcr|l r c t Hch IH Em Hc Hrc Hlc]; cbn [List.map swapm fst snd] in *.
  - unfold swapm; cbn [fst snd]. apply ch_bottom.
    + apply mir_in, Hr.
    + apply mir_in, Hl.
    + rewrite !mir_mir. auto.
    + intros q Hq. apply HS, in_mir in Hq. specialize (Bot _ Hq). rewrite <- (mir_mir q), cross_mir, cross_flip. ql.
  - apply ch_right; rewrite ?mir_mir; auto.
    + apply (empty_ext _ _ HS), empty_mir, empty_rot, Em.
    + apply mir_in, Hc.
  - apply ch_left; rewrite ?mir_mir; auto.
    + apply (empty_ext _ _ HS), empty_mir, empty_rot, Em.
    + apply mir_in, Hc.
Qed.
Lemma swapm_in x y bs : In (mir y, mir x) (List.map swapm bs) <-> In (x, y) bs.
Proof.
  rewrite in_map_iff. split.
  - intros ([x' y'] & e & h). unfold swapm in e. cbn [fst snd] in e.
    pose proof (f_equal fst e) as e1. pose proof (f_equal snd e) as e2. cbn [fst snd] in e1, e2. apply mir_inj in e1, e2. subst.
    exact h.
  - intros h. exists (x, y). auto.
Qed.
Lemma mir_app L R q : In q (List.map mir (L ++ R)) <-> In q (List.map mir R ++ List.map mir L).
Proof. rewrite map_app, !in_app_iff. tauto. Qed.
Lemma inv_mir L R mL mR m l r t : inv L R mL mR m l r t ->
  inv (List.map mir R) (List.map mir L) (mirm mR) (mirm mL) (mirm m) (mir r) (mir l) (List.map swapm t).
Proof.
  intros I. pose proof (i_laws _ _ _ _ _ _ _ _ I) as W. split.
  - apply (laws_ext _ _ (mir_app L R)), laws_mir, W.
  - apply (chain_mir (L ++ R) _ L R (me m) ((l, r) :: t)); [apply (l_sym _ _ W)|apply mir_app|apply (i_chain _ _ _ _ _ _ _ _ I)].
  - intros v a h. cbn [mirm me] in *.
    change ((mir r, mir l) :: List.map swapm t) with (List.map swapm ((l, r) :: t)).
    pose proof (swapm_in (mir v) (mir a) ((l, r) :: t)) as s1. pose proof (swapm_in (mir a) (mir v) ((l, r) :: t)) as s2.
    rewrite !mir_mir in s1, s2. rewrite s1, s2.
    destruct (i_sub _ _ _ _ _ _ _ _ I _ _ h) as [g|[g|[g|g]]]; auto.
  - intros v a h. cbn [mirm me] in *. destruct (i_R _ _ _ _ _ _ _ _ I _ _ h) as [g|g]; [auto|right].
    apply (sndel_ext _ _ (mir_app L R)). apply sndel_mir' in g. rewrite !mir_mir in g. exact g.
  - intros v a h. cbn [mirm me] in *. destruct (i_L _ _ _ _ _ _ _ _ I _ _ h) as [g|g]; [auto|right].
    apply (sndel_ext _ _ (mir_app L R)). apply sndel_mir' in g. rewrite !mir_mir in g. exact g.
Qed.

(** The triangle of a Delaunay edge of the left part. *)
Lemma has_triangle_left L R ep tau mL mR m l r t v a :
  (forall q, In q L -> phi ep q < tau) -> (forall q, In q R -> tau < phi ep q) -> DT L mL ->
  inv L R mL mR m l r t -> (forall q, In q (L ++ R) -> cross l r q <= 0) ->
  me m v a -> me mL v a -> DE (L ++ R) v a -> (exists q, In q (L ++ R) /\ 0 < cross v a q) ->
  exists b, empty (L ++ R) v a b /\ me m v b /\ me m a b.
Proof.
  intros HL HR TL I Top Hva HvaL D Q. pose proof (i_laws _ _ _ _ _ _ _ _ I) as W. pose proof (d_laws _ _ TL) as WL.
  pose proof (l_in _ _ WL _ _ HvaL) as Hv. pose proof (e_in2 _ _ WL _ _ HvaL) as Ha.
  assert (SL : forall q, In q L -> In q (L ++ R)) by (intros; apply in_app_iff; auto).
  assert (SR : forall q, In q R -> In q (L ++ R)) by (intros; apply in_app_iff; auto).
  destruct (lowest L R v a D Q) as (w & Hw & Em); [intros q; apply (l_clean _ _ W _ _ _ Hva)|].
  destruct (empty_disc _ _ _ _ Em) as (Dk & DS & Dv & Da & Dw). pose proof (proj1 Em) as Cw. clear Em.
  set (Dc := circ v a w) in *. clearbody Dc.
  destruct (ex_in_dec (fun q => 0 < cross v a q /\ pw Dc q = 0) L) as [(w1 & i1 & c1 & p1)|N].
  { intros q. destruct (qlt_dec 0 (cross v a q)); [destruct (Qc_eq_dec (pw Dc q) 0)|]; [left; auto|right; tauto|right; tauto]. }
  - destruct (l_next _ _ WL _ _ HvaL) as (Hb & _). pose proof (d_corner _ _ TL _ _ HvaL) as DC. set (b := mn mL v a) in *.
    destruct DC as [(e & e')|g].
    2:{ exfalso. pose proof (gap_right L v a b (l_ne _ _ WL _ _ Hb) (l_ne _ _ WL _ _ HvaL) g w1 i1). ql. }
    assert (Pb : pw Dc b = 0).
    { apply (two_discs Dc v a b w1); auto; [apply DS, SL, (e_in2 _ _ WL _ _ Hb)|apply e; exact i1]. }
    exists b. split; [apply (disc_empty _ Dc); auto; apply e|]. split.
    + destruct (i_L _ _ _ _ _ _ _ _ I _ _ Hb) as [g|g]; [exact g|exfalso]. apply (DE_sndel _ _ _ (chord _ Dc v b Dk DS Dv Pb) g).
    + destruct (i_L _ _ _ _ _ _ _ _ I _ _ e') as [g|g]; [exact g|exfalso]. apply (DE_sndel _ _ _ (chord _ Dc a b Dk DS Da Pb) g).
  - assert (NL : forall q, In q L -> pw Dc q = 0 -> cross v a q <= 0).
    { intros q Hq Pq. destruct (Qclt_le_dec 0 (cross v a q)) as [h|h]; [exfalso; apply (N q Hq); auto|exact h]. }
    assert (Hw' : In w R).
    { apply in_app_iff in Hw as [h|h]; [|exact h]. specialize (NL w h Dw). ql. }
    pose proof (i_chain _ _ _ _ _ _ _ _ I) as Hch.
    destruct (band_on_disc (L ++ R) L R m ep tau Dc v a w l r t) as (l' & r' & i1 & i2 & i3 & i4); auto.
    destruct (walk (L ++ R) L R m W Dc v a) with (l := l) (r := r) (t := t) (l' := l') (r' := r') as (r1 & j1 & j2 & j3 & j4); auto.
    + intros q h1 h2. specialize (HL q h1). specialize (HR q h2). ql.
    + exists r1. auto.
Qed.

Section D.
Context (L R : list point) (ep tau : Qc) (mL mR : map).
Context (HL : forall q, In q L -> phi ep q < tau) (HR : forall q, In q R -> tau < phi ep q).
Context (TL : DT L mL) (TR : DT R mR).
Notation S := (L ++ R).
Context (m : map) (l r : point) (t : list (point * point)) (I : inv L R mL mR m l r t)
  (Top : forall q, In q S -> cross l r q <= 0).
Let W := i_laws _ _ _ _ _ _ _ _ I.

Lemma has_triangle v a : me m v a -> DE S v a -> (exists q, In q S /\ 0 < cross v a q) ->
  exists b, empty S v a b /\ me m v b /\ me m a b.
Proof.
  intros H D Q. pose proof (i_chain _ _ _ _ _ _ _ _ I) as Hch.
  destruct (i_sub _ _ _ _ _ _ _ _ I _ _ H) as [g|[g|[g|g]]].
  - apply (has_triangle_left L R ep tau mL mR m l r t); auto.
  - destruct (has_triangle_left (List.map mir R) (List.map mir L) (- ep) (- tau) (mirm mR) (mirm mL) (mirm m) (mir r) (mir l) (List.map swapm t) (mir a) (mir v))
      as (b & e1 & e2 & e3).
    + intros q Hq. apply in_mir, HR in Hq. unfold phi, mir in *. cbn [px py] in *.
      replace (- ep * py q) with (- (ep * py q)) by ring. ql.
    + intros q Hq. apply in_mir, HL in Hq. unfold phi, mir in *. cbn [px py] in *.
      replace (- ep * py q) with (- (ep * py q)) by ring. ql.
    + apply DT_mir, TR.
    + apply inv_mir, I.
    + intros q Hq. apply mir_app, in_mir, Top in Hq. rewrite <- (mir_mir q), cross_mir, cross_flip. ql.
    + cbn [mirm me]. rewrite !mir_mir. apply (l_sym _ _ W), H.
    + cbn [mirm me]. rewrite !mir_mir. apply (l_sym _ _ (d_laws _ _ TR)), g.
    + intros c q Hc Hq. apply (DE_mir S a v (DE_sym _ _ _ D)); apply mir_app; assumption.
    + destruct Q as (q & Hq & C). exists (mir q). split; [apply mir_app, mir_in, Hq|]. rewrite cross_mir, cross_flip. ql.
    + cbn [mirm me] in *. rewrite !mir_mir in *. exists (mir b). split; [|auto].
      apply (empty_ext _ _ (fun q => iff_sym (mir_app L R q))) in e1. rewrite <- (mir_mir b) in e1. apply empty_mir' in e1.
      apply empty_rot, empty_rot in e1. exact e1.
  - (* v is on the left *)
    destruct g as [e|g].
    + inversion e; subst. exfalso. destruct Q as (q & Hq & C). specialize (Top q Hq). ql.
    + destruct (chain_up _ _ _ _ _ v a Hch g) as (c & e1 & e2 & e3). exists c. split; [exact e1|]. split; [exact e2|].
      destruct e3; [apply (l_sym _ _ W)|]; assumption.
  - destruct (chain_down _ _ _ _ _ a v (l_sym _ _ W) Hch g) as [h|(c & h1 & h2 & h3)].
    + exfalso. destruct Q as (q & Hq & C). specialize (h q Hq). rewrite cross_flip in h. ql.
    + exists c. auto.
Qed.
(** The edges of the convex hull. *)
Lemma hull_claim v n : In v S -> In n S -> n <> v -> (forall q, In q S -> 0 <= cross v n q) ->
  (forall q, In q S -> ~ btw q v n) -> me m v n.
Proof.
  intros Hv Hn N HS HB. pose proof (i_chain _ _ _ _ _ _ _ _ I) as Hch.
  assert (SL : forall q, In q L -> In q S) by (intros; apply in_app_iff; auto).
  assert (SR : forall q, In q R -> In q S) by (intros; apply in_app_iff; auto).
  pose proof Hv as Hv'. pose proof Hn as Hn'. apply in_app_iff in Hv' as [Hv'|Hv'], Hn' as [Hn'|Hn'].
  - destruct (i_L _ _ _ _ _ _ _ _ I v n) as [g|g]; [|exact g|exfalso; apply (DE_sndel _ _ _ (left_DE _ _ _ HS) g)].
    apply (hull_edge L mL TL); auto.
  - destruct (chain_bottom _ _ _ _ _ Hch) as (l0 & r0 & h1 & h2). destruct (chain_in _ _ _ _ _ _ _ Hch h1) as (i1 & i2 & i3 & _).
    assert (C : forall q, In q S -> ~ btw q l0 r0) by (intros q; apply (l_clean _ _ W _ _ _ i3)).
    destruct (tangent_unique ep tau 1 l0 r0 v n) as (-> & ->); auto.
    all: try (replace (1 * cross l0 r0 v) with (cross l0 r0 v) by ring; auto).
    all: try (replace (1 * cross l0 r0 n) with (cross l0 r0 n) by ring; auto).
    all: try (replace (1 * cross v n l0) with (cross v n l0) by ring; auto).
    all: try (replace (1 * cross v n r0) with (cross v n r0) by ring; auto).
    intros e; discriminate e.
  - destruct (inv_base _ _ _ _ _ _ _ _ I) as (i1 & i2 & i3 & i4 & _).
    assert (C : forall q, In q S -> ~ btw q l r) by (intros q; apply (l_clean _ _ W _ _ _ i3)).
    assert (T1 : forall q, In q S -> 0 <= - (1) * cross l r q).
    { intros q Hq. specialize (Top q Hq). replace (- (1) * cross l r q) with (- cross l r q) by ring. ql. }
    assert (T2 : forall q, In q S -> 0 <= - (1) * cross n v q).
    { intros q Hq. specialize (HS q Hq). rewrite cross_flip. replace (- (1) * - cross v n q) with (cross v n q) by ring. exact HS. }
    destruct (tangent_unique ep tau (- (1)) l r n v) as (-> & ->); auto.
    + intros e; discriminate e.
    + intros b. apply (HB l); auto. apply btw_sym, b.
    + intros b. apply (HB r); auto. apply btw_sym, b.
  - destruct (i_R _ _ _ _ _ _ _ _ I v n) as [g|g]; [|exact g|exfalso; apply (DE_sndel _ _ _ (left_DE _ _ _ HS) g)].
    apply (hull_edge R mR TR); auto.
Qed.
Lemma two_points v : In v S -> exists w, In w S /\ w <> v.
Proof.
  intros Hv. destruct (inv_base _ _ _ _ _ _ _ _ I) as (i1 & i2 & _).
  destruct (point_eq_dec l v) as [<-|n].
  - exists r. split; [apply in_app_iff; auto|]. intros e. specialize (HL _ i1). specialize (HR _ i2). rewrite e in HR. ql.
  - exists l. split; [apply in_app_iff; auto|exact n].
Qed.
(** A Delaunay neighbour, [A] being the side of [v] and the other side being ahead. *)
Lemma good_nbr (A : list point) (mA : map) (TA : DT A mA) (ca cb : Qc) v :
  (ca <> 0 \/ cb <> 0) -> In v A -> (forall q, In q A -> In q S) ->
  (forall q, In q S -> In q A \/ ca * px v + cb * py v < ca * px q + cb * py q) ->
  (forall x y, me mA x y -> me m x y \/ sndel S x y) ->
  exists a, me m v a /\ DE S v a.
Proof.
  intros Nab Hv AS HO HE. set (ps := fun q => ca * px q + cb * py q) in *.
  destruct (ex_in_dec (fun q => ps q < ps v) A) as [Q|N].
  { intros q. apply qlt_dec. }
  - destruct (min_exists (fun q => ps q < ps v) (fun x y => d2 v x * (ps v - ps y) <= d2 v y * (ps v - ps x)) A) as (y & Hy & Cy & My); auto.
    { intros q. apply qlt_dec. }
    { intros x z _ _. destruct (Qclt_le_dec (d2 v x * (ps v - ps z)) (d2 v z * (ps v - ps x))); [left; ql|right; ql]. }
    { intros x z u hx hz hu h1 h2. 
      pose proof (mul_nonneg (ps v - ps u) (d2 v z * (ps v - ps x) - d2 v x * (ps v - ps z)) ltac:(ql) ltac:(ql)) as M1.
      pose proof (mul_nonneg (ps v - ps x) (d2 v u * (ps v - ps z) - d2 v z * (ps v - ps u)) ltac:(ql) ltac:(ql)) as M2.
      assert (0 <= d2 v u * (ps v - ps x) - d2 v x * (ps v - ps u)); [|ql].
      apply (nonneg_of_mul (ps v - ps z)); [ql|].
      replace ((ps v - ps z) * (d2 v u * (ps v - ps x) - d2 v x * (ps v - ps u))) with
       ((ps v - ps u) * (d2 v z * (ps v - ps x) - d2 v x * (ps v - ps z)) + (ps v - ps x) * (d2 v u * (ps v - ps z) - d2 v z * (ps v - ps u))) by ring. ql. }
    set (Ac := ps v - ps y). set (Bc := d2 v y).
    set (D := Disc Ac (Bc * ca - (Ac + Ac) * px v) (Bc * cb - (Ac + Ac) * py v) (Ac * (px v * px v + py v * py v) - Bc * ps v)).
    assert (PD : forall q, pw D q = Ac * d2 v q - Bc * (ps v - ps q)).
    { intros q. unfold pw, D, d2, ps. cbn [dk dm dn dc]. ring. }
    assert (A0 : 0 < Ac) by (unfold Ac; ql). assert (B0 : 0 <= Bc) by apply d2_nonneg.
    assert (Dk : 0 < dk D) by exact A0.
    assert (DS : forall q, In q S -> 0 <= pw D q).
    { intros q Hq. rewrite PD. destruct (Qclt_le_dec (ps q) (ps v)) as [h|h].
      - destruct (HO q Hq) as [g|g]; [|fold (ps v) (ps q) in g; exfalso; ql].
        specialize (My q g h). fold Ac Bc in My. rewrite (Qcmult_comm Ac). ql.
      - pose proof (mul_nonneg Ac (d2 v q) ltac:(ql) (d2_nonneg _ _)). pose proof (mul_nonneg Bc (ps q - ps v) B0 ltac:(ql)) as M.
        replace (Bc * (ps v - ps q)) with (- (Bc * (ps q - ps v))) by ring. ql. }
    assert (Dv : pw D v = 0) by (rewrite PD; unfold d2, Ac; ring).
    assert (Dy : pw D y = 0) by (rewrite PD; fold Ac Bc; ring).
    clearbody D.
    destruct (fan0 A mA TA D v y Dk (fun q h => DS q (AS q h)) Hv Hy) as (w' & h1 & h2); auto.
    { intros ->. ql. }
    pose proof (chord S D v w' Dk DS Dv h2) as DEw. exists w'. split; [|exact DEw].
    destruct (HE _ _ h1) as [g|g]; [exact g|]. exfalso. apply (DE_sndel _ _ _ DEw g).
  - set (z := Pt (px v - cb) (py v + ca)).
    assert (Nz : z <> v).
    { intros e. assert (px z = px v) by congruence. assert (py z = py v) by congruence. unfold z in *. cbn [px py] in *.
      destruct Nab as [n|n]; apply n; ql. }
    assert (V : forall q, In q S -> ps v <= ps q).
    { intros q Hq. destruct (HO q Hq) as [g|g]; [|fold (ps v) (ps q) in g; ql]. apply Qcnot_lt_le, (N q g). }
    destruct (two_points v (AS _ Hv)) as (w & Hw & Nw).
    destruct (hull_next S v z w Nz Hw Nw) as (n & Hn & Nn & h1 & h2 & _).
    + intros q Hq Nq. apply ad_nonpos; auto. specialize (V q Hq).
      replace (cross v z q) with (ps v - ps q) by (unfold cross, z, ps; cbn [px py]; ring). ql.
    + exists n. split; [apply hull_claim; auto|apply left_DE; auto].
Qed.
Lemma nbr v : In v S -> exists a, me m v a /\ DE S v a.
Proof.
  intros Hv. apply in_app_iff in Hv as [Hv|Hv].
  - apply (good_nbr L mL TL 1 ep v); auto.
    + left. intros e; discriminate e.
    + intros; apply in_app_iff; auto.
    + intros q Hq. apply in_app_iff in Hq as [h|h]; [auto|right]. specialize (HL _ Hv). specialize (HR _ h). unfold phi in *.
      replace (1 * px v) with (px v) by ring. replace (1 * px q) with (px q) by ring. ql.
    + apply (i_L _ _ _ _ _ _ _ _ I).
  - apply (good_nbr R mR TR (- (1)) (- ep) v); auto.
    + left. intros e; discriminate e.
    + intros; apply in_app_iff; auto.
    + intros q Hq. apply in_app_iff in Hq as [h|h]; [right|auto]. specialize (HL _ h). specialize (HR _ Hv). unfold phi in *.
      replace (- (1) * px v) with (- px v) by ring. replace (- (1) * px q) with (- px q) by ring.
      replace (- ep * py v) with (- (ep * py v)) by ring. replace (- ep * py q) with (- (ep * py q)) by ring. ql.
    + apply (i_R _ _ _ _ _ _ _ _ I).
Qed.
Lemma good_corner v a : me m v a -> DE S v a ->
  (tri S m v a (mn m v a) \/ gap S v a (mn m v a)) /\ DE S v (mn m v a).
Proof.
  intros H D. destruct (l_next _ _ W _ _ H) as (Hb & _). set (b := mn m v a) in *.
  pose proof (l_ne _ _ W _ _ H) as Na. pose proof (l_ne _ _ W _ _ Hb) as Nb.
  destruct (ex_in_dec (fun q => 0 < cross v a q) S) as [Q|N]; [intros q; apply qlt_dec| |].
  - destruct (has_triangle v a H D Q) as (c & e1 & e2 & e3).
    assert (b = c) as -> by (apply (tri_corner S m W); auto).
    split; [left; split; auto|]. apply DE_sym, (empty_DE _ _ _ a), empty_rot, empty_rot, e1.
  - assert (N2 : forall q, In q S -> q <> v -> q2 <= ad v a q).
    { intros q Hq Nq. apply ad_nonpos; auto. apply Qcnot_lt_le, (N q Hq). }
    destruct (hull_next S v a a Na) as (n & Hn & Nn & h1 & h2 & h3); auto.
    { apply (e_in2 _ _ W _ _ H). }
    pose proof (hull_claim v n (l_in _ _ W _ _ H) Hn Nn h1 h2) as Evn.
    assert (G : gap S v a b).
    { split; [apply N2; auto; apply (e_in2 _ _ W _ _ Hb)|]. intros q Hq Nq. specialize (h3 q Hq Nq).
      pose proof (l_sorted _ _ W _ _ _ H Evn) as So. fold b in So. ql. }
    split; [right; exact G|]. apply left_DE, (gap_left S v a b); auto.
Qed.
Theorem merged : DT S m.
Proof.
  assert (G : forall v a, me m v a -> DE S v a).
  { intros v a H. destruct (nbr v (l_in _ _ W _ _ H)) as (a0 & H0 & D0).
    apply (all_nbrs S m W (DE S v) v a0 a H0 H D0). intros x Hx Dx. apply good_corner; auto. }
  split; [exact W| |].
  - intros v w Hv _ _. destruct (nbr v Hv) as (a & h & _). eauto.
  - intros v a H. apply good_corner; auto.
Qed.
End D.
