(** MapLists.v - lemmas about the dropdown lists of the weather map. *)
From Coq Require Import DecimalString Sorting.Sorted Lqa.
From Verif Require Import Base Graph Objects Sim Api Spec SpecCkt SpecSim MapTypes Map SpecMap
  MonadProofs GroupProofs QuietProofs RouteProofs ObjProofs PathProofs ValidateProofs LspTraffic MapProofs.

Lemma first_ends a b : dash_free a -> dash_free b -> first_part (ends_text a b) = a.
Proof. intros A B. unfold first_part. now rewrite split_ends. Qed.
Lemma second_ends a b : dash_free a -> dash_free b -> second_part (ends_text a b) = b.
Proof. intros A B. unfold second_part. now rewrite split_ends. Qed.

Section Lists.
Variable E : env.
Hypothesis HE : env_ok E.

Lemma keys_of_groups s t g : plain_names s t -> grouped s t g ->
  forall key, In key (map fst g) -> exists x, In x (objs s t) /\ key = ends_text (ofrom s t x) (oto s t x) /\ first_part key = ofrom s t x /\ second_part key = oto s t x.
Proof.
  intros P G key H. apply (grouped_key _ _ _ _ G) in H as (x & Hx & ->). exists x. destruct (P x Hx). split; auto. split; auto. split; [now apply first_ends|now apply second_ends].
Qed.
Lemma key_of_obj s t g x : plain_names s t -> grouped s t g -> In x (objs s t) ->
  In (ends_text (ofrom s t x) (oto s t x)) (map fst g) /\ first_part (ends_text (ofrom s t x) (oto s t x)) = ofrom s t x /\ second_part (ends_text (ofrom s t x) (oto s t x)) = oto s t x.
Proof.
  intros P G H. destruct (P x H). split; [|split; [now apply first_ends|now apply second_ends]]. apply (grouped_key _ _ _ _ G). eauto.
Qed.

Lemma get_sources_spec s t b : plain_names s t -> (t = TLsp -> cache_current s) -> exists s' l, get_sources E b t s = (s', Ok l) /\ but_cache s s' /\
  (t = TDemand -> s' = s) /\ (t = TLsp -> cache_current s') /\
  NoDup l /\ forall a, In a l <-> exists x, In x (objs s t) /\ ofrom s t x = a /\ oto s t x = b.
Proof.
  intros P C. destruct (groups_exact E s t HE P C) as (s' & g & R & B & D & G & C'). unfold get_sources. rewrite (bind_run _ _ _ _ _ R).
  eexists _, _. split; [reflexivity|]. split; [exact B|]. split; [exact D|]. split; [intros Et; right; auto|]. split.
  - apply NoDup_map_inj_in; [apply NoDup_filter; apply G|]. intros x y Hx Hy Exy. apply filter_In in Hx as [Hx Ex]. apply filter_In in Hy as [Hy Ey].
    apply String.eqb_eq in Ex, Ey. destruct (keys_of_groups _ _ _ P G _ Hx) as (o & _ & -> & A1 & A2). destruct (keys_of_groups _ _ _ P G _ Hy) as (o' & _ & -> & A3 & A4). congruence.
  - intros a. rewrite in_map_iff. split.
    + intros (key & <- & H). apply filter_In in H as [H Eb]. apply String.eqb_eq in Eb. destruct (keys_of_groups _ _ _ P G _ H) as (o & Ho & -> & A1 & A2). exists o. split; auto. split; congruence.
    + intros (x & Hx & <- & <-). destruct (key_of_obj _ _ _ x P G Hx) as (K1 & K2 & K3). exists (ends_text (ofrom s t x) (oto s t x)). split; auto.
      apply filter_In. split; auto. rewrite K3. apply String.eqb_refl.
Qed.
Lemma get_destinations_spec s t a : plain_names s t -> (t = TLsp -> cache_current s) -> exists s' l, get_destinations E a t s = (s', Ok l) /\ but_cache s s' /\
  (t = TDemand -> s' = s) /\ (t = TLsp -> cache_current s') /\
  NoDup l /\ forall b, In b l <-> exists x, In x (objs s t) /\ ofrom s t x = a /\ oto s t x = b.
Proof.
  intros P C. destruct (groups_exact E s t HE P C) as (s' & g & R & B & D & G & C'). unfold get_destinations. rewrite (bind_run _ _ _ _ _ R).
  eexists _, _. split; [reflexivity|]. split; [exact B|]. split; [exact D|]. split; [intros Et; right; auto|]. split.
  - apply NoDup_map_inj_in; [apply NoDup_filter; apply G|]. intros x y Hx Hy Exy. apply filter_In in Hx as [Hx Ex]. apply filter_In in Hy as [Hy Ey].
    apply String.eqb_eq in Ex, Ey. destruct (keys_of_groups _ _ _ P G _ Hx) as (o & _ & -> & A1 & A2). destruct (keys_of_groups _ _ _ P G _ Hy) as (o' & _ & -> & A3 & A4). congruence.
  - intros b. rewrite in_map_iff. split.
    + intros (key & <- & H). apply filter_In in H as [H Eb]. apply String.eqb_eq in Eb. destruct (keys_of_groups _ _ _ P G _ H) as (o & Ho & -> & A1 & A2). exists o. split; auto. split; congruence.
    + intros (x & Hx & <- & <-). destruct (key_of_obj _ _ _ x P G Hx) as (K1 & K2 & K3). exists (ends_text (ofrom s t x) (oto s t x)). split; auto.
      apply filter_In. split; auto. rewrite K2. apply String.eqb_refl.
Qed.

(** the lists for the first display *)
Lemma rmap_two_parts keys f g : (forall key, In key keys -> two_parts key = Ok (f key, g key)) -> rmap two_parts keys = Ok (map (fun key => (f key, g key)) keys).
Proof.
  induction keys as [|x keys IH]; intros H; [reflexivity|]. cbn [rmap map]. rewrite (H x (or_introl eq_refl)). cbn [rbind].
  rewrite IH; [reflexivity|]. intros y Hy. apply H. simpl. auto.
Qed.
Lemma sd_spec s t : plain_names s t -> (t = TLsp -> cache_current s) -> exists s' srcs dsts, sources_and_destinations E t s = (s', Ok (srcs, dsts)) /\ but_cache s s' /\
  (t = TDemand -> s' = s) /\ (t = TLsp -> cache_current s') /\
  alphabetical srcs /\ NoDup srcs /\ (forall a, In a srcs <-> exists x, In x (objs s t) /\ ofrom s t x = a) /\
  alphabetical dsts /\ NoDup dsts /\ (forall b, In b dsts <-> exists x, In x (objs s t) /\ oto s t x = b).
Proof.
  intros P C. destruct (groups_exact E s t HE P C) as (s' & g & R & B & D & G & C'). unfold sources_and_destinations. rewrite (bind_run _ _ _ _ _ R).
  assert (T : rmap two_parts (map fst g) = Ok (map (fun key => (first_part key, second_part key)) (map fst g))).
  { apply rmap_two_parts. intros key H. apply (grouped_key _ _ _ _ G) in H as (x & Hx & ->). destruct (P x Hx) as [P1 P2]. unfold two_parts. rewrite split_ends; auto. rewrite first_ends, second_ends; auto. }
  rewrite bind_reads, T. cbn [ret]. eexists _, _, _. split; [reflexivity|]. split; [exact B|]. split; [exact D|]. split; [intros Et; right; auto|].
  rewrite !map_map. cbn [fst snd]. split; [apply sort_sorted|]. split; [apply sort_NoDup; apply (ok_iter E HE)|]. split.
  { intros a. rewrite sort_In, (proj2 (ok_iter E HE _)), in_map_iff. split.
    - intros (kl & <- & H). apply (in_map fst) in H. destruct (keys_of_groups _ _ _ P G _ H) as (o & Ho & -> & A1 & A2). eauto.
    - intros (x & Hx & <-). destruct (key_of_obj _ _ _ x P G Hx) as (K1 & K2 & K3). apply in_map_iff in K1 as (kl & K1 & K4). exists kl. rewrite K1. auto. }
  split; [apply sort_sorted|]. split; [apply sort_NoDup; apply (ok_iter E HE)|].
  intros a. rewrite sort_In, (proj2 (ok_iter E HE _)), in_map_iff. split.
  - intros (kl & <- & H). apply (in_map fst) in H. destruct (keys_of_groups _ _ _ P G _ H) as (o & Ho & -> & A1 & A2). eauto.
  - intros (x & Hx & <-). destruct (key_of_obj _ _ _ x P G Hx) as (K1 & K2 & K3). apply in_map_iff in K1 as (kl & K1 & K4). exists kl. rewrite K1. auto.
Qed.

(** ** Options *)
Lemma but_objs s s' t : but_cache s s' -> objs s' t = objs s t /\ (forall x, ofrom s' t x = ofrom s t x) /\ (forall x, oto s' t x = oto s t x) /\ (forall x, okey s' t x = okey s t x).
Proof.
  intros (A1 & A2 & A3 & A4 & A5 & A6 & A7 & A8 & A9 & _). destruct t; cbn [objs ofrom oto okey]; unfold dmd_from, dmd_to, dmd_key, lsp_from, lsp_to, lsp_key, dmd_from, dmd_to, lsp_from, lsp_to.
  - rewrite A8, A2, A4. auto.
  - rewrite A9, A2, A5. auto.
Qed.
Lemma but_trans a b c : but_cache a b -> but_cache b c -> but_cache a c.
Proof. unfold but_cache. intros A B. intuition congruence. Qed.
Lemma but_plain s s' t : but_cache s s' -> plain_names s t -> plain_names s' t.
Proof. intros B P x. destruct (but_objs s s' t B) as (-> & H1 & H2 & _). rewrite H1, H2. apply P. Qed.
Lemma grouped_ext s s' t g : objs s' t = objs s t -> (forall x, ofrom s' t x = ofrom s t x) -> (forall x, oto s' t x = oto s t x) -> grouped s' t g -> grouped s t g.
Proof.
  intros H0 H1 H2 [N G]. split; [exact N|]. intros key ls. rewrite G. split; intros (a & b & A & B & C); exists a, b; split; auto; split; auto.
  - rewrite C, H0. apply filter_ext. intros x. now rewrite H1, H2.
  - rewrite C, H0. apply filter_ext. intros x. now rewrite H1, H2.
Qed.
Lemma but_grouped s s' t g : but_cache s s' -> grouped s' t g -> grouped s t g.
Proof. intros B. destruct (but_objs s s' t B) as (H0 & H1 & H2 & _). now apply grouped_ext. Qed.

Lemma nodup_app_iff {A} (a b : list A) : NoDup (a ++ b) <-> NoDup a /\ NoDup b /\ forall x, In x a -> ~ In x b.
Proof.
  induction a as [|x a IH]; simpl; [split; [intros H; split; [constructor|auto]|tauto]|]. rewrite !NoDup_cons_iff, IH, in_app_iff. split.
  - intros (A1 & A2 & A3 & A4). repeat split; auto. intros y [<-|H]; auto.
  - intros ((A1 & A2) & A3 & A4). repeat split; auto. intros [H|H]; [auto|]. apply (A4 x); auto.
Qed.
Lemma nodup_pieces (g : list (string * list nat)) : NoDup (map fst g) -> (forall kl, In kl g -> NoDup (snd kl)) ->
  (forall kl kl' x, In kl g -> In kl' g -> In x (snd kl) -> In x (snd kl') -> fst kl = fst kl') -> NoDup (flat_map snd g).
Proof.
  induction g as [|kl g IH]; intros N S D; [constructor|]. cbn [flat_map]. simpl in N. apply NoDup_cons_iff in N as [N1 N2].
  apply nodup_app_iff. split; [apply S; simpl; auto|]. split.
  - apply IH; auto; intros; [apply S; simpl; auto|eapply D; simpl; eauto].
  - intros x Hx Hx'. apply in_flat_map in Hx' as (kl' & H1 & H2). apply N1. rewrite (D kl kl' x); simpl; auto. now apply in_map.
Qed.
Lemma filter_fst_nodup p (g : list (string * list nat)) : NoDup (map fst g) -> NoDup (map fst (filter p g)).
Proof.
  induction g as [|kl g IH]; intros N; [constructor|]. simpl in N. apply NoDup_cons_iff in N as [N1 N2]. cbn [filter]. destruct (p kl); [|auto].
  cbn [map]. constructor; auto. intros H. apply N1. apply in_map_iff in H as (y & <- & H). apply filter_In in H as [H _]. now apply in_map.
Qed.
Lemma group_member s t g key ls x : grouped s t g -> In (key, ls) g -> In x ls -> In x (objs s t) /\ key = ends_text (ofrom s t x) (oto s t x).
Proof.
  intros G H Hx. apply G in H as (a & b & -> & _ & ->). apply filter_In in Hx as [Hx Q]. apply andb_true_iff in Q as [Q1 Q2]. apply String.eqb_eq in Q1, Q2. subst. auto.
Qed.
Lemma group_of_obj s t g x : grouped s t g -> In x (objs s t) -> exists ls, In (ends_text (ofrom s t x) (oto s t x), ls) g /\ In x ls.
Proof.
  intros G Hx. exists (filter (fun y => String.eqb (ofrom s t y) (ofrom s t x) && String.eqb (oto s t y) (oto s t x)) (objs s t)).
  assert (I : In x (filter (fun y => String.eqb (ofrom s t y) (ofrom s t x) && String.eqb (oto s t y) (oto s t x)) (objs s t))) by (apply filter_In; rewrite !String.eqb_refl; auto).
  split; auto. apply G. eexists _, _. split; [reflexivity|]. split; [|reflexivity]. intros C. rewrite C in I. destruct I.
Qed.
Lemma pieces_perm s t g (part : string -> string) (p : nat -> string) c : plain_names s t -> grouped s t g -> NoDup (objs s t) ->
  (forall x, In x (objs s t) -> part (ends_text (ofrom s t x) (oto s t x)) = p x) ->
  Permutation (flat_map snd (filter (fun kl => String.eqb (part (fst kl)) c) g)) (filter (fun x => String.eqb (p x) c) (objs s t)).
Proof.
  intros P G N Hp. apply NoDup_Permutation.
  - apply nodup_pieces.
    + apply filter_fst_nodup. apply G.
    + intros [key ls] H. apply filter_In in H as [H _]. apply G in H as (a & b & _ & _ & ->). cbn [snd]. now apply NoDup_filter.
    + intros [key ls] [key' ls'] x H H' Hx Hx'. cbn [fst snd] in *. apply filter_In in H as [H _]. apply filter_In in H' as [H' _].
      destruct (group_member _ _ _ _ _ _ G H Hx) as [_ ->]. destruct (group_member _ _ _ _ _ _ G H' Hx') as [_ ->]. reflexivity.
  - now apply NoDup_filter.
  - intros x. rewrite in_flat_map, filter_In. split.
    + intros ([key ls] & H & Hx). apply filter_In in H as [H Q]. cbn [fst snd] in *. destruct (group_member _ _ _ _ _ _ G H Hx) as [Ho ->]. rewrite Hp in Q by auto. auto.
    + intros [Hx Q]. destruct (group_of_obj _ _ _ _ G Hx) as (ls & H & Hl). exists (ends_text (ofrom s t x) (oto s t x), ls). split; [|exact Hl].
      apply filter_In. split; auto. cbn [fst]. rewrite Hp; auto.
Qed.
Lemma format_spec s t l : format_objects s t l = match l with [] => Err IndexError | _ => Ok (map (okey s t) l) end.
Proof.
  unfold format_objects. destruct l; [reflexivity|]. destruct t; reflexivity.
Qed.

Lemma dropdown_both srcs dsts s t a b : plain_names s t -> (t = TLsp -> cache_current s) -> dash_free a ->
  exists s', but_cache s s' /\ (t = TDemand -> s' = s) /\ (t = TLsp -> cache_current s') /\
    dropdowns E srcs dsts t (Some a) (Some b) s =
      (s', match filter (fun x => String.eqb (ofrom s t x) a && String.eqb (oto s t x) b) (objs s t) with
           | [] => Err KeyError
           | l => Ok ([a], [b], Clear :: map (fun x => Obj (okey s t x)) l)
           end).
Proof.
  intros P C Fa. destruct (groups_exact E s t HE P C) as (s' & g & R & B & D & G & C'). exists s'. split; [exact B|]. split; [exact D|]. split; [intros Et; right; auto|].
  unfold dropdowns. rewrite (bind_run _ _ _ _ _ R), bind_reads. set (l := filter _ _).
  change (pair_key a b) with (ends_text a b).
  assert (X : dict_get (ends_text a b) g = match l with [] => None | _ => Some l end).
  { destruct l as [|x0 l0] eqn:Q.
    - apply dict_get_none. intros I. apply (grouped_key _ _ _ _ G) in I as (x & Hx & K). apply ends_text_inj in K as [-> ->]; [|auto|apply (P x Hx)].
      assert (I : In x l) by (unfold l; apply filter_In; rewrite !String.eqb_refl; auto). rewrite Q in I. destruct I.
    - apply dict_get_in; [apply G|]. apply G. exists a, b. split; auto. split; [discriminate|]. symmetry. exact Q. }
  rewrite X. destruct l as [|x0 l0]; [reflexivity|]. rewrite bind_reads, format_spec. cbn [ret map].
  destruct (but_objs s s' t B) as (_ & _ & _ & Ok'). rewrite Ok', map_map. rewrite (map_ext _ (fun x => Obj (okey s t x))); [reflexivity|]. intros x. now rewrite Ok'.
Qed.
Lemma dropdown_dest srcs dsts s t b : plain_names s t -> NoDup (objs s t) -> (t = TLsp -> cache_current s) ->
  exists s' r, dropdowns E srcs dsts t None (Some b) s = (s', r) /\ but_cache s s' /\ (t = TDemand -> s' = s) /\ (t = TLsp -> cache_current s') /\
    ((forall x, In x (objs s t) -> oto s t x <> b) -> r = Err IndexError) /\
    ((exists x, In x (objs s t) /\ oto s t x = b) -> exists ss os, r = Ok (ss, [b], Clear :: map Obj os) /\
       alphabetical ss /\ NoDup ss /\ (forall a, In a ss <-> exists x, In x (objs s t) /\ ofrom s t x = a /\ oto s t x = b) /\
       Permutation os (map (okey s t) (filter (fun x => String.eqb (oto s t x) b) (objs s t)))).
Proof.
  intros P N C. destruct (get_sources_spec s t b P C) as (s1 & ss & R & B & D & Cc & N1 & I1).
  destruct (groups_exact E s1 t HE (but_plain _ _ _ B P) Cc) as (s2 & g & R2 & B2 & D2 & G2 & C2).
  unfold dropdowns. rewrite (bind_run _ _ _ _ _ R), (bind_run _ _ _ _ _ R2), bind_reads, format_spec.
  pose proof (but_grouped _ _ _ _ B G2) as G.
  pose proof (pieces_perm s t g second_part (oto s t) b P G N (fun x Hx => proj2 (proj2 (key_of_obj _ _ _ _ P G Hx)))) as Pm.
  set (l := flat_map _ _) in *. exists s2, (match l with [] => Err IndexError | _ => Ok (sort_str ss, [b], Clear :: map Obj (map (okey s2 t) l)) end).
  split; [destruct l; reflexivity|].
  pose proof (but_trans _ _ _ B B2) as B3. split; [exact B3|]. split; [intros Et; rewrite D2 by auto; auto|]. split; [intros Et; right; auto|]. split.
  - intros H. assert (L : l = []); [|now rewrite L].
    destruct l as [|x l]; [reflexivity|]. exfalso. assert (I : In x (filter (fun y => String.eqb (oto s t y) b) (objs s t))) by (eapply Permutation_in; [exact Pm|simpl; auto]).
    apply filter_In in I as [I Q]. apply String.eqb_eq in Q. now apply (H x).
  - intros (x & Hx & Q). assert (I : In x l). { eapply Permutation_in; [symmetry; exact Pm|]. apply filter_In. rewrite Q, String.eqb_refl. auto. }
    destruct l as [|y l]; [destruct I|]. exists (sort_str ss). eexists. split; [reflexivity|]. split; [apply sort_sorted|]. split; [now apply sort_NoDup|].
    split; [intros a; rewrite sort_In; apply I1|]. destruct (but_objs s s2 t B3) as (_ & _ & _ & Ok'). rewrite (map_ext _ _ Ok'). now apply Permutation_map.
Qed.
Lemma dropdown_source srcs dsts s t a : plain_names s t -> NoDup (objs s t) -> (t = TLsp -> cache_current s) ->
  exists s' r, dropdowns E srcs dsts t (Some a) None s = (s', r) /\ but_cache s s' /\ (t = TDemand -> s' = s) /\ (t = TLsp -> cache_current s') /\
    ((forall x, In x (objs s t) -> ofrom s t x <> a) -> r = Err IndexError) /\
    ((exists x, In x (objs s t) /\ ofrom s t x = a) -> exists ds os, r = Ok ([a], ds, Clear :: map Obj os) /\
       alphabetical ds /\ NoDup ds /\ (forall b, In b ds <-> exists x, In x (objs s t) /\ ofrom s t x = a /\ oto s t x = b) /\
       Permutation os (map (okey s t) (filter (fun x => String.eqb (ofrom s t x) a) (objs s t)))).
Proof.
  intros P N C. destruct (get_destinations_spec s t a P C) as (s1 & ss & R & B & D & Cc & N1 & I1).
  destruct (groups_exact E s1 t HE (but_plain _ _ _ B P) Cc) as (s2 & g & R2 & B2 & D2 & G2 & C2).
  unfold dropdowns. rewrite (bind_run _ _ _ _ _ R), (bind_run _ _ _ _ _ R2), bind_reads, format_spec.
  pose proof (but_grouped _ _ _ _ B G2) as G.
  pose proof (pieces_perm s t g first_part (ofrom s t) a P G N (fun x Hx => proj1 (proj2 (key_of_obj _ _ _ _ P G Hx)))) as Pm.
  set (l := flat_map _ _) in *. exists s2, (match l with [] => Err IndexError | _ => Ok ([a], sort_str ss, Clear :: map Obj (map (okey s2 t) l)) end).
  split; [destruct l; reflexivity|].
  pose proof (but_trans _ _ _ B B2) as B3. split; [exact B3|]. split; [intros Et; rewrite D2 by auto; auto|]. split; [intros Et; right; auto|]. split.
  - intros H. assert (L : l = []); [|now rewrite L].
    destruct l as [|x l]; [reflexivity|]. exfalso. assert (I : In x (filter (fun y => String.eqb (ofrom s t y) a) (objs s t))) by (eapply Permutation_in; [exact Pm|simpl; auto]).
    apply filter_In in I as [I Q]. apply String.eqb_eq in Q. now apply (H x).
  - intros (x & Hx & Q). assert (I : In x l). { eapply Permutation_in; [symmetry; exact Pm|]. apply filter_In. rewrite Q, String.eqb_refl. auto. }
    destruct l as [|y l]; [destruct I|]. exists (sort_str ss). eexists. split; [reflexivity|]. split; [apply sort_sorted|]. split; [now apply sort_NoDup|].
    split; [intros b; rewrite sort_In; apply I1|]. destruct (but_objs s s2 t B3) as (_ & _ & _ & Ok'). rewrite (map_ext _ _ Ok'). now apply Permutation_map.
Qed.
Lemma dropdown_none srcs dsts s t : dropdowns E srcs dsts t None None s = (s, Ok (srcs, dsts, [Clear; Text ""])).
Proof. reflexivity. Qed.

(** ** After a simulation the cache is current *)
Lemma cache_after k s s' : NoDup (m_ifs s) -> plain_names s TLsp -> update_simulation E k s = (s', Ok tt) -> cache_current s' /\ plain_names s' TLsp.
Proof.
  intros N P Up. destruct (simulated_ex _ _ _ _ Up) as (s1 & s2 & s3 & s4 & Sm).
  destruct (sm_rest _ _ _ _ _ _ _ _ Sm HE N) as (B1 & _ & _ & B4 & _ & _ & _ & B8 & _ & B10). pose proof (sm_24 _ _ _ _ _ _ _ _ Sm) as R.
  destruct (sm_12 _ _ _ _ _ _ _ _ Sm) as (A1 & A2 & A3 & A4 & A5 & A6 & A7 & A8 & A9).
  assert (EG : egroups E s' = egroups E s2).
  { rewrite <- (rs_gr _ _ _ R). unfold egroups. rewrite B10. destruct (m_groups s4); [|reflexivity]. unfold lsrc, ldst. now rewrite B1, B4, B8. }
  assert (L1 : forall l, lsrc s2 l = lsp_from s l) by (intros x; unfold lsrc, lsp_from; rewrite A1; destruct (A7 x) as (p & a & b & ->); reflexivity).
  assert (L2 : forall l, ldst s2 l = lsp_to s l) by (intros x; unfold ldst, lsp_to; rewrite A1; destruct (A7 x) as (p & a & b & ->); reflexivity).
  assert (M1 : m_lsps s' = m_lsps s) by (rewrite B8, (rs_lsps _ _ _ R); exact A5).
  assert (F1 : forall l, lsp_from s' l = lsp_from s l).
  { intros l. unfold lsp_from at 1. rewrite B1, B4. change (lsrc s4 l = lsp_from s l). now rewrite (rs_lsrc _ _ _ R). }
  assert (F2 : forall l, lsp_to s' l = lsp_to s l).
  { intros l. unfold lsp_to at 1. rewrite B1, B4. change (ldst s4 l = lsp_to s l). now rewrite (rs_ldst _ _ _ R). }
  assert (P2 : plain_names s2 TLsp).
  { intros x Hx. cbn [objs ofrom oto] in *. rewrite A5 in Hx. change (lsp_from s2 x) with (lsrc s2 x). change (lsp_to s2 x) with (ldst s2 x). rewrite L1, L2. apply (P x Hx). }
  assert (P' : plain_names s' TLsp).
  { intros x Hx. cbn [objs ofrom oto] in *. rewrite M1 in Hx. rewrite F1, F2. apply (P x Hx). }
  split; [|exact P']. unfold cache_current. destruct (m_groups s') as [|g0 gs] eqn:Gs; [auto|]. right.
  assert (X : egroups E s' = g0 :: gs) by (unfold egroups; now rewrite Gs). rewrite <- X, EG, A9.
  apply (grouped_ext s' s2 TLsp); cbn [objs ofrom oto].
  - now rewrite A5, M1.
  - intros x. rewrite F1. apply L1.
  - intros x. rewrite F2. apply L2.
  - exact (build_grouped E s2 TLsp HE P2).
Qed.
Lemma node_list_spec s : alphabetical (make_node_list s) /\ Permutation (make_node_list s) (map (nd_name s) (m_nds s)).
Proof. split; [apply sort_sorted|apply sort_perm]. Qed.
End Lists.
