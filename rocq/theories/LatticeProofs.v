(** Coordinates of vertices are in every set, closed by differences, that contains the drawn ones. *)
From Coq Require Import Sorted Permutation.
From Verif Require Import Base Prog Geometry Ctx Utils Contracts Spec LatticeSpec Factories Strategies Planar QcTac QcFast ProgProofs
  GeomProofs EdgeProofs ListProofs SimpleProofs GridProofs ConvexProofs PlanarProofs MultiProofs ContourProofs StarProofs SequenceProofs
  GeometryApiProofs SeparationProofs MultipolygonProofs SliceProofs MixSpec MixProofs MixApiProofs GeneralApiProofs.
Import List ListNotations.

Section Coordinate.
  Context (G : Qc -> Prop) (Hc : closed_by_differences G).
  Lemma closed_zero a : G a -> G 0%Qc.
  Proof. intros H. replace 0%Qc with (a - a)%Qc by ring. auto. Qed.
  Lemma closed_opp a : G a -> G (- a)%Qc.
  Proof. intros H. replace (- a)%Qc with (0 - a)%Qc by ring. apply Hc; [eapply closed_zero; exact H|exact H]. Qed.
  Lemma closed_add a b : G a -> G b -> G (a + b)%Qc.
  Proof. intros Ha Hb. replace (a + b)%Qc with (a - - b)%Qc by ring. apply Hc; [exact Ha|apply closed_opp, Hb]. Qed.
  Lemma closed_min a b : G a -> G b -> G (qmin a b).
  Proof. intros Ha Hb. destruct (qmin_cases a b) as [-> | ->]; assumption. Qed.
  Lemma closed_max a b : G a -> G b -> G (qmax a b).
  Proof. intros Ha Hb. unfold qmax. destruct (qltb a b); assumption. Qed.
  Lemma vectors_in l : forall bs lo hi mx, (forall c, In c l -> G c) -> G lo -> G hi -> G mx ->
    forall v, In v (vectors_coordinates l bs lo hi mx) -> G v.
  Proof.
    induction l as [|c l IH]; intros bs lo hi mx Hl H1 H2 H3 v; cbn [vectors_coordinates].
    - intros [<-|[<-|[]]]; apply Hc; assumption.
    - assert (Gc : G c) by (apply Hl; left; reflexivity). assert (Hl' : forall c, In c l -> G c) by (intros d Hd; apply Hl; right; exact Hd).
      destruct (hd true bs); (intros [<-|H]; [apply Hc; assumption|]); eapply IH in H; eassumption.
  Qed.
End Coordinate.
Lemma removelast_in (u : list Qc) c : In c (removelast u) -> In c u.
Proof.
  induction u as [|z u IH]; [intros K; exact K|]. destruct u as [|z' u]; [intros K; destruct K|].
  change (removelast (z :: z' :: u)) with (z :: removelast (z' :: u)). intros [<-|H]; [left; reflexivity|right; apply IH, H].
Qed.
Lemma split_ends_all l a m b : split_ends l = Some (a, m, b) -> forall c, In c m -> In c l.
Proof.
  destruct l as [|x [|y l]]; unfold split_ends; try discriminate. intros H c Hc. right. apply removelast_in.
  assert (E : removelast (y :: l) = m) by congruence. rewrite E. exact Hc.
Qed.
Section Points.
  Context (G H : Qc -> Prop) (HG : closed_by_differences G) (HH : closed_by_differences H).
  Lemma walk_in vs : forall x y mx my pairs mx' my', walk vs x y mx my = (pairs, (mx', my')) ->
    (forall v, In v vs -> G (fst v) /\ H (snd v)) -> G x -> H y -> G mx -> H my ->
    G mx' /\ H my' /\ forall p, In p pairs -> G (fst p) /\ H (snd p).
  Proof.
    induction vs as [|(vx, vy) vs IH]; intros x y mx my pairs mx' my' E Hv Gx Hy Gm Hm; cbn [walk] in E.
    - injection E as <- <- <-. split; [exact Gm|]. split; [exact Hm|]. intros p [].
    - destruct (walk vs _ _ _ _) as (ps & (a & b)) eqn:E'. injection E as <- <- <-.
      destruct (Hv _ (or_introl eq_refl)) as (Vx & Vy). cbn [fst snd] in Vx, Vy.
      assert (Gx' : G (x + vx)%Qc) by (apply closed_add; assumption). assert (Hy' : H (y + vy)%Qc) by (apply closed_add; assumption).
      destruct (IH _ _ _ _ _ _ _ E') as (A & B & C); try assumption.
      + intros v Iv. apply Hv. right. exact Iv.
      + apply closed_min; assumption.
      + apply closed_min; assumption.
      + split; [exact A|]. split; [exact B|]. intros p [<-|Ip]; [split; assumption|apply C, Ip].
  Qed.
  Lemma convex_sequence_in ctx points bx by_ sh vs : (forall l v, In v (sh l) -> In v l \/ v = 0%Qc) ->
    to_convex_vertex_sequence ctx points bx by_ sh = Ok vs -> (forall p, In p points -> point_in G H p) ->
    exists l, vs = ctx_hull ctx l /\ forall p, In p l -> point_in G H p.
  Proof.
    intros Hsh E Hp. unfold to_convex_vertex_sequence in E.
    destruct (split_ends (isort qleb (map px points))) as [((x0, xm), x1)|] eqn:Ex; [|discriminate].
    destruct (split_ends (isort qleb (map py points))) as [((y0, ym), y1)|] eqn:Ey; [|discriminate]. cbv zeta in E.
    assert (Px : forall x, In x (isort qleb (map px points)) -> G x).
    { intros x Hx. apply isort_in, in_map_iff in Hx. destruct Hx as (p & <- & Ip). apply Hp, Ip. }
    assert (Py : forall y, In y (isort qleb (map py points)) -> H y).
    { intros y Hy. apply isort_in, in_map_iff in Hy. destruct Hy as (p & <- & Ip). apply Hp, Ip. }
    pose proof (split_ends_all _ _ _ _ Ex) as Ax. pose proof (split_ends_all _ _ _ _ Ey) as Ay.
    destruct (split_ends_in _ _ _ _ Ex) as (I0 & I1). destruct (split_ends_in _ _ _ _ Ey) as (J0 & J1).
    pose proof (Px _ I0) as G0. pose proof (Px _ I1) as G1. pose proof (Py _ J0) as H0. pose proof (Py _ J1) as H1.
    destruct (mapM _ _) as [keyed|e] eqn:Em; cbn [rbind] in E; [|discriminate]. apply mapM_snd in Em.
    destruct (walk _ 0 0 0 0) as (pairs & (mx & my)) eqn:Ew. injection E as <-.
    apply walk_in in Ew; [|  |eapply closed_zero; [exact HG|exact G0]|eapply closed_zero; [exact HH|exact H0]|eapply closed_zero; [exact HG|exact G0]|eapply closed_zero; [exact HH|exact H0]].
    - destruct Ew as (Gm & Hm & Hpairs). eexists. split; [reflexivity|]. intros p Ip. apply in_map_iff in Ip. destruct Ip as ((u, v) & <- & Iuv).
      destruct (Hpairs _ Iuv) as (Gu & Hv). cbn [fst snd] in *. split; cbn [px py].
      + apply closed_min; [|exact G1]. apply closed_max; [|exact G0]. apply closed_add; [exact HG|exact Gu|]. apply HG; assumption.
      + apply closed_min; [|exact H1]. apply closed_max; [|exact H0]. apply closed_add; [exact HH|exact Hv|]. apply HH; assumption.
    - intros v Iv. apply in_map_iff in Iv. destruct Iv as ((a, v') & <- & Iv). apply isort_in in Iv. apply (in_map snd) in Iv. rewrite Em in Iv. cbn [snd] in *.
      destruct v' as (a', b'). cbn [fst snd]. split.
      + apply in_combine_l in Iv. eapply vectors_in; [exact HG| | | | |exact Iv]; try assumption. intros c Hc. apply Px, Ax, Hc.
      + apply in_combine_r, Hsh in Iv. destruct Iv as [Iv| ->]; [|eapply closed_zero; [exact HH|exact H0]].
        eapply vectors_in; [exact HH| | | | |exact Iv]; try assumption. intros c Hc. apply Py, Ay, Hc.
  Qed.
  Context (xs : scalars) (ys : option scalars) (Dx : draws_from G xs) (Dy : draws_from H (ordinates xs ys)).
  Lemma drawable_in p : drawable_point xs ys p -> point_in G H p.
  Proof. intros (A & B). split; [apply Dx, A|apply Dy, B]. Qed.
  Context (ctx : context) (Hh : forall l, is_hull l (ctx_hull ctx l)).
  Lemma convex_strategy_in mn mx vs : generates (to_convex_vertex_sequence_strategy ctx xs ys mn mx) vs -> forall p, In p vs -> point_in G H p.
  Proof.
    intros K.
    assert (Ht : generates (to_triangular_vertex_sequence_strategy xs ys) vs -> forall p, In p vs -> point_in G H p).
    { intros K'. apply gen_triangle in K'. destruct K' as (a & b & c & -> & _ & Da & Db & Dc). intros p [<-|[<-|[<-|[]]]]; apply drawable_in; assumption. }
    assert (Hrec : generates (to_rectangular_vertex_sequence_strategy xs ys) vs -> forall p, In p vs -> point_in G H p).
    { intros K'. apply gen_rectangle in K'. destruct K' as (x1 & x2 & y1 & y2 & -> & _ & _ & D1 & D2 & D3 & D4).
      intros p [<-|[<-|[<-|[<-|[]]]]]; apply drawable_in; split; assumption. }
    unfold to_convex_vertex_sequence_strategy in K. destruct (match mx with None => false | Some m => (m <? CONCAVE)%Z end); [apply Ht, K|]. cbv zeta in K.
    match type of K with context [pfilter ?f ?p] => set (r := pfilter f p) in K end.
    assert (Hres : generates r vs -> forall p, In p vs -> point_in G H p).
    { clear K. intros K. apply gen_pfilter in K. destruct K as (K & _).
      apply gen_bind in K. destruct K as (points & Hp & K). apply gen_bind in K. destruct K as (bx & _ & K).
      apply gen_bind in K. destruct K as (by_ & _ & K). apply gen_bind in K. destruct K as (perm & _ & K). apply gen_lift in K.
      apply grid_sound in Hp. apply convex_sequence_in in K.
      - destruct K as (l & -> & Hl). intros p Ip. apply Hl, (Hh l), Ip.
      - intros l v Iv. unfold shuffle_by in Iv. apply in_map_iff in Iv. destruct Iv as (i & <- & _). destruct (nth_in_or_default i l (Q2Qc 0)) as [J|J]; auto.
      - intros p Ip. apply drawable_in. apply (grid_drawable _ _ _ _ _ Hp p Ip). }
    assert (Hr2 : generates (if (mn <=? 4)%Z then alt (to_rectangular_vertex_sequence_strategy xs ys) r else r) vs -> forall p, In p vs -> point_in G H p).
    { destruct (mn <=? 4)%Z; [|exact Hres]. intros K'. apply gen_alt in K'. destruct K' as [K'|K']; auto. }
    destruct (mn =? 3)%Z; [|apply Hr2, K]. apply gen_alt in K. destruct K as [K|K]; auto.
  Qed.
  Lemma vertex_sequence_in mn mx vs : (3 <= mn)%Z -> generates (to_vertex_sequence_strategy ctx xs ys mn mx) vs -> forall p, In p vs -> point_in G H p.
  Proof.
    intros Hm K. unfold to_vertex_sequence_strategy in K. apply gen_alt in K. destruct K as [K|K]; [eapply convex_strategy_in; exact K|].
    apply vertex_sequences_spec in K; [|exact Hm]. intros p Ip. apply drawable_in, K, Ip.
  Qed.
End Points.
Section Segments.
  Context (G H : Qc -> Prop) (HG : closed_by_differences G) (HH : closed_by_differences H).
  Context (ctx : context) (Hh : forall l, is_hull l (ctx_hull ctx l)).
  Lemma segment_sequence_in xs ys mn mx l : draws_from G xs -> draws_from H (ordinates xs ys) -> (0 <= mn)%Z ->
    generates (to_segment_sequence_strategy ctx xs ys mn mx) l ->
    forall s, In s l -> point_in G H (seg_start s) /\ point_in G H (seg_end s).
  Proof.
    intros Dx Dy Hm K. unfold to_segment_sequence_strategy in K. change (or_else ys xs) with (ordinates xs ys) in K.
    set (zs := ordinates xs ys) in *. clearbody zs. cbv zeta in K.
    assert (G1 : forall s, generates (to_segment_strategy xs (Some zs)) s -> point_in G H (seg_start s) /\ point_in G H (seg_end s)).
    { intros s Hs. apply gen_segment in Hs. destruct Hs as (_ & D1 & D2). split; apply (drawable_in G H xs (Some zs) Dx Dy); assumption. }
    destruct (match mx with None => false | Some m => m <? 2 end)%Z.
    { assert (Hl : l = [] \/ generates (pmap (fun s => [s]) (to_segment_strategy xs (Some zs))) l).
      { destruct mx as [[| |]|]; auto. apply gen_ret in K. auto. }
      destruct Hl as [-> |Hl]; [intros s []|]. apply gen_pmap in Hl. destruct Hl as (s & Hs & ->). intros t [<-|[]]. apply G1, Hs. }
    apply gen_alt in K. destruct K as [K|K].
    2: { apply gen_pfilter in K. destruct K as (K & _). apply gen_lists in K. intros s Hs. apply G1, K, Hs. }
    match type of K with generates (if _ then alt ?b _ else _) _ => assert (Base : generates b l -> forall s, In s l -> point_in G H (seg_start s) /\ point_in G H (seg_end s)) end.
    { clear K. intros K. apply gen_alt in K. destruct K as [K|K].
      - apply gen_bind in K. destruct K as (x & Hdx & K). apply gen_bind in K. destruct K as (l' & Hl & K). apply gen_ret in K. subst l.
        apply gen_unique_scalars in Hl. destruct Hl as (Nd & _ & _ & Dr). intros s Hs. unfold to_vertical_multisegment in Hs. apply in_map_iff in Hs.
        destruct Hs as ((a & b) & <- & Hin). destruct (pairwise_strict _ _ _ (isort_strict _ Nd) Hin) as (_ & Ia & Ib). apply isort_in in Ia, Ib.
        split; split; cbn [seg_start seg_end px py fst snd]; first [apply Dx, Hdx|apply Dy, Dr; assumption].
      - apply gen_bind in K. destruct K as (l' & Hl & K). apply gen_bind in K. destruct K as (y & Hdy & K). apply gen_ret in K. subst l.
        apply gen_unique_scalars in Hl. destruct Hl as (Nd & _ & _ & Dr). intros s Hs. unfold to_horizontal_multisegment in Hs. apply in_map_iff in Hs.
        destruct Hs as ((a & b) & <- & Hin). destruct (pairwise_strict _ _ _ (isort_strict _ Nd) Hin) as (_ & Ia & Ib). apply isort_in in Ia, Ib.
        split; split; cbn [seg_start seg_end px py fst snd]; first [apply Dy, Hdy|apply Dx, Dr; assumption]. }
    destruct (match mx with None => true | Some m => MIN_CONTOUR_SIZE <=? m end)%Z; [|apply Base, K].
    apply gen_alt in K. destruct K as [K|K]; [apply Base, K|]. apply gen_bind in K. destruct K as (vs & Hv & K).
    change (contour_vertices_to_edges vs) with (contour_segments vs) in K. apply gen_sub_sequence in K; [|exact Hm]. destruct K as (_ & rest & P).
    change MIN_CONTOUR_SIZE with 3%Z in Hv. pose proof (vertex_sequence_in G H HG HH xs (Some zs) Dx Dy ctx Hh _ _ _ (Z.le_max_r _ 3) Hv) as Hp.
    intros s Hs. assert (Hin : In s (contour_segments vs)) by (apply (Permutation_in _ (Permutation_sym P)), in_or_app; left; exact Hs).
    destruct s as [a b]. apply segments_edge in Hin. destruct Hin as (i & A & B). cbn [seg_start seg_end].
    split; apply Hp; eapply nth_error_In; eassumption.
  Qed.
  Context (xs : scalars) (ys : option scalars) (Dx : draws_from G xs) (Dy : draws_from H (ordinates xs ys)).
  Lemma convex_contours_in mn mx w s vs : convex_contours ctx xs ys mn mx = Ok (w, s) -> generates s vs -> forall p, In p vs -> point_in G H p.
  Proof. intros E. unfold convex_contours in E. validate; try discriminate. injection E as _ <-. apply convex_strategy_in; assumption. Qed.
  Lemma contours_in mn mx w s vs : contours ctx xs ys mn mx = Ok (w, s) -> generates s vs -> forall p, In p vs -> point_in G H p.
  Proof. intros E. unfold contours in E. validate; try discriminate. injection E as _ <-. change MIN_CONTOUR_SIZE with 3%Z. apply vertex_sequence_in; try assumption. lia. Qed.
  Lemma multisegments_in mn mx w s l : multisegments ctx xs ys mn mx = Ok (w, s) -> generates s l ->
    forall t, In t l -> point_in G H (seg_start t) /\ point_in G H (seg_end t).
  Proof.
    intros E. unfold multisegments in E. validate; try discriminate. injection E as _ <-. apply segment_sequence_in; try assumption.
    change MIN_MULTISEGMENT_SIZE with 2%Z. lia.
  Qed.
  Lemma segment_draw_in g : segment_draw ctx xs (ordinates xs ys) g -> forall t, In t g -> point_in G H (seg_start t) /\ point_in G H (seg_end t).
  Proof.
    intros [->|(a & l & count & Hc & Hd & K)]; [intros t []|]. unfold draw_segments in K. destruct (sliced a (py_take l count) xs (ordinates xs ys)) as (sx & sy) eqn:E.
    assert (Hs : draws_from G sx /\ draws_from H sy).
    { assert (Hd' : forall x, In x (py_take l count) -> drawable (scalars_of a xs (ordinates xs ys)) x) by (intros x Hx; apply Hd, (py_take_in _ _ _ Hx)).
      destruct a; cbn [sliced scalars_of] in *; injection E as <- <-; split; try assumption; intros q Hq; apply drawable_sampled in Hq; auto. }
    destruct Hs. intros t Ht. eapply (segment_sequence_in sx (Some sy)); [eassumption|eassumption| |exact K|exact Ht]. apply Z.div_pos; lia.
  Qed.
  Lemma mixes_in pmn pmx gmn gmx qmn qmx mn mx hmn hmx smn smx w s m :
    mixes ctx xs ys pmn pmx gmn gmx qmn qmx mn mx hmn hmx smn smx = Ok (w, s) -> generates s m ->
    forall t, In t (elements (linear m)) -> point_in G H (seg_start t) /\ point_in G H (seg_end t).
  Proof.
    intros E Hg. destruct (mixes_spec _ _ _ _ _ _ _ _ _ _ _ _ _ _ _ _ _ _ Hh E Hg) as (P & S & Q & -> & _ & _ & _ & _ & _ & (_ & _ & _ & E4 & _)).
    cbn [linear]. rewrite elements_unpack. destruct E4 as (groups & -> & G1 & _). intros t Ht. apply in_concat in Ht. destruct Ht as (g & Ig & It).
    exact (segment_draw_in g (G1 g Ig) t It).
  Qed.
End Segments.
