(** Where the members of multicontours and the holes of polygons come from. *)
From Coq Require Import Sorting.Sorted.
From Verif Require Import Base Prog Geometry Ctx Utils Contracts Spec Factories Strategies Planar ProgProofs GeomProofs
  ListProofs CompressProofs AdjacentProofs EdgeProofs HelperProofs TriProofs SeparationProofs GridProofs PlanarProofs MultiProofs SequenceProofs GeometryApiProofs.

(** [vs] is carved from some of the [points]. *)
Definition carved (ctx : context) (points : list point) (vs : contour) : Prop :=
  exists pts size, to_vertex_sequence ctx pts size = Ok vs /\ incl pts points /\ (NoDup points -> NoDup pts) /\ 3 <= List.length vs.

Lemma carved_incl ctx points points' vs : incl points points' -> (NoDup points' -> NoDup points) -> carved ctx points vs -> carved ctx points' vs.
Proof. intros H1 H2 (pts & size & H3 & H4 & H5 & H6). exists pts, size. repeat split; auto. intros p Hp. apply H1, H4, Hp. Qed.
Lemma nodup_firstn {A} n (l : list A) : NoDup l -> NoDup (firstn n l).
Proof. intros H. rewrite <- (firstn_skipn n l) in H. revert H. generalize (skipn n l). induction (firstn n l) as [|x r IH]; intros t H; [constructor|].
  inversion H as [|? ? H1 H2]; subst. constructor; [|eapply IH, H2]. intros K. apply H1, in_or_app. auto. Qed.
Lemma nodup_skipn {A} n (l : list A) : NoDup l -> NoDup (skipn n l).
Proof. intros H. rewrite <- (firstn_skipn n l) in H. revert H. induction (firstn n l) as [|x r IH]; intros H; [exact H|]. inversion H. auto. Qed.
Lemma nodup_take {A} n (l : list A) : NoDup l -> NoDup (py_take l n).
Proof. apply nodup_firstn. Qed.
Lemma nodup_drop {A} n (l : list A) : NoDup l -> NoDup (py_drop l n).
Proof. apply nodup_skipn. Qed.
Lemma resort_in (prior : option bool) k (points : list point) :
  let points' := if match prior with Some k' => Bool.eqb k k' | None => false end then points else sort_points k points in
  incl points' points /\ (NoDup points -> NoDup points').
Proof.
  cbn zeta. destruct (match prior with Some k' => Bool.eqb k k' | None => false end); [split; [apply incl_refl|auto]|].
  split; [intros p; apply isort_in|apply isort_nodup].
Qed.
Lemma multicontour_origin ctx sizes : forall choices prior points result r,
  multicontour_loop ctx sizes choices prior points result = Ok r ->
  forall vs, In vs r -> In vs result \/ carved ctx points vs.
Proof.
  induction sizes as [|size sizes IH]; intros choices prior points result r H vs Hv.
  { cbn in H. injection H as <-. auto. }
  destruct choices as [|k choices]; cbn [multicontour_loop] in H.
  { injection H as <-. auto. }
  destruct (resort_in prior k points) as (I1 & N1).
  set (points' := if (_ : bool) then points else sort_points k points) in *. clearbody points'.
  apply rbind_ok in H. destruct H as (ws & Hw & H).
  destruct (MIN_CONTOUR_SIZE <=? lenZ ws)%Z eqn:E.
  - apply rbind_ok in H. destruct H as (touch & _ & H). destruct (IH _ _ _ _ _ H vs Hv) as [K|K].
    + apply in_app_or in K. destruct K as [K|[<- |[]]]; [auto|]. right. exists (py_take points' size), size.
      split; [exact Hw|]. split; [intros p Hp; apply I1; eapply py_take_in, Hp|]. split; [intros N; apply nodup_take, N1, N|].
      apply Z.leb_le in E. change MIN_CONTOUR_SIZE with 3%Z in E. unfold lenZ in E. lia.
    + right. eapply carved_incl; [| |exact K].
      * intros p Hp. apply I1. eapply py_drop_in, Hp.
      * intros N. apply nodup_drop, N1, N.
  - destruct (IH _ _ _ _ _ H vs Hv) as [K|K]; [auto|]. right. eapply carved_incl; [exact I1|exact N1|exact K].
Qed.
Lemma hole_origin ctx sizes : forall choices prior inner hs bp hs' bp',
  hole_loop ctx sizes choices prior inner hs bp = Ok (hs', bp') ->
  forall vs, In vs hs' -> In vs hs \/ exists ws, vs = reverse_vertices ws /\ carved ctx inner ws.
Proof.
  induction sizes as [|size sizes IH]; intros choices prior inner hs bp hs' bp' H vs Hv.
  { cbn in H. injection H as <- _. auto. }
  destruct choices as [|k choices]; cbn [hole_loop] in H.
  { injection H as <- _. auto. }
  destruct (resort_in prior k inner) as (I1 & N1).
  set (points' := if (_ : bool) then inner else sort_points k inner) in *. clearbody points'.
  apply rbind_ok in H. destruct H as (ws & Hw & H).
  destruct (MIN_CONTOUR_SIZE <=? lenZ ws)%Z eqn:E.
  - apply rbind_ok in H. destruct H as (u & _ & H). apply rbind_ok in H. destruct H as (touch & _ & H). destruct (IH _ _ _ _ _ _ _ H vs Hv) as [K|K].
    + apply in_app_or in K. destruct K as [K|[<- |[]]]; [auto|]. right. exists ws. split; [reflexivity|]. exists (py_take points' size), size.
      split; [exact Hw|]. split; [intros p Hp; apply I1; eapply py_take_in, Hp|]. split; [intros N; apply nodup_take, N1, N|].
      apply Z.leb_le in E. change MIN_CONTOUR_SIZE with 3%Z in E. unfold lenZ in E. lia.
    + right. destruct K as (w & -> & K). exists w. split; [reflexivity|]. eapply carved_incl; [| |exact K].
      * intros p Hp. apply I1. eapply py_drop_in, Hp.
      * intros N. apply nodup_drop, N1, N.
  - destruct (IH _ _ _ _ _ _ _ H vs Hv) as [K|K]; [auto|]. right. destruct K as (w & -> & K). exists w. split; [reflexivity|].
    eapply carved_incl; [exact I1|exact N1|exact K].
Qed.

Lemma carved_inner ctx points vs : carved ctx points vs -> (forall a b, contour_edge vs a b -> a <> b) /\ inner_strict vs.
Proof.
  intros (pts & size & H & _ & _ & H3). destruct (carved_compressed _ _ _ _ H) as (l & ->).
  split; [intros a b; apply compress_adjacent, H3|]. intros i a b c. apply compressed_inner, H3.
Qed.
Lemma multicontours_members ctx xs ys mn mx cmn cmx w s mc :
  multicontours ctx xs ys mn mx cmn cmx = Ok (w, s) -> generates s mc ->
  exists points m M, generates (to_point_sequence_in_general_position_strategy xs ys m M) points /\ (6 <= m)%Z
    /\ forall vs, In vs mc -> carved ctx points vs.
Proof.
  intros H Hg. unfold multicontours in H. validate; try discriminate. injection H as _ <-.
  unfold to_multicontour_strategy in Hg. apply gen_pfilter in Hg. destruct Hg as (Hg & _).
  apply gen_bind in Hg. destruct Hg as (points & Hp & Hg). apply gen_bind in Hg. destruct Hg as (size & _ & Hg).
  apply gen_bind in Hg. destruct Hg as (sizes & _ & Hg). apply gen_bind in Hg. destruct Hg as (choices & _ & Hg). apply gen_lift in Hg.
  do 3 eexists. split; [exact Hp|]. split; [change MIN_MULTICONTOUR_SIZE with 2%Z; change MIN_CONTOUR_SIZE with 3%Z; pose proof (Z.le_max_r mn 2); pose proof (Z.le_max_r cmn 3); nia|].
  intros vs Hv. destruct (multicontour_origin _ _ _ _ _ _ _ Hg vs Hv) as [[]|K]. exact K.
Qed.
Lemma multicontours_three ctx xs ys mn mx cmn cmx w s mc :
  multicontours ctx xs ys mn mx cmn cmx = Ok (w, s) -> generates s mc ->
  forall vs, In vs mc -> lenZ vs = 3%Z -> simple vs.
Proof.
  intros H Hg vs Hv L. destruct (multicontours_members _ _ _ _ _ _ _ _ _ _ H Hg) as (points & m & M & _ & _ & K).
  destruct (carved_inner _ _ _ (K vs Hv)) as (_ & I).
  destruct vs as [|a [|b [|c [|d l]]]]; unfold lenZ in L; cbn [Datatypes.length] in L; try lia.
  apply triangle_simple, (I 0); reflexivity.
Qed.
