(** PropertiesRename.v - other names of nodes (C109), parts that are cut off (C110). *)
From Verif Require Import Base Graph Objects Sim Api Build Spec SpecHist SpecCkt SpecSim SpecMetric SpecFlow SpecOrder SpecFail SpecWhatIf SpecSame SpecCost Nets GraphProofs RoundProofs
  PropertiesValidate PropertiesRoute PropertiesFail PropertiesOrder OrderProofs RepairProofs WhatIf WhatIfMore WhatIfApi PropertiesWhatIf SpecTotal SpecMore MoreLsps PropertiesMore RenameProofs PartProofs NameLsps PartLsps PropertiesTotal PropertiesSame PropertiesSignal PropertiesCost.
From Coq Require Import Lqa.

(** ** C109 Other names of nodes *)
Theorem C109_renamed E E' k f s t s' t' : env_ok E -> env_ok E' -> plain k s -> plain k t -> renamed f s t ->
  update_simulation E k s = (s', Ok tt) -> update_simulation E' k t = (t', Ok tt) ->
  (forall d, In d (m_dms s) -> same_paths (d_path (h_dm s' d)) (d_path (h_dm t' d)) /\ forall i x y, adds k s' d i x -> adds k t' d i y -> (x == y)%Q) /\
  forall i, In i (m_ifs s) -> same_traffic (i_traffic (h_if s' i)) (i_traffic (h_if t' i)).
Proof.
  intros HE HE' P P' R U U'. split.
  - intros d Hd. split; [exact (name_paths f s t R E E' k s' t' HE HE' P P' U U' d Hd)|]. intros i x y. exact (name_adds f s t R E E' k s' t' HE HE' P P' U U' d i x y Hd).
  - intros i Hi. exact (name_traffic f s t R E E' k s' t' HE HE' P P' U U' i Hi).
Qed.
Print Assumptions C109_renamed.
(** Calling the nodes otherwise, without '-', keeps the simulation successful and its results. *)
Theorem C109_rename_nodes E E' k f s s' : env_ok E -> env_ok E' -> plain k s -> proper_names f s -> update_simulation E k s = (s', Ok tt) ->
  exists t', update_simulation E' k (rename_nodes f s) = (t', Ok tt) /\
    (forall d, In d (m_dms s) -> same_paths (d_path (h_dm s' d)) (d_path (h_dm t' d)) /\ forall i x y, adds k s' d i x -> adds k t' d i y -> (x == y)%Q) /\
    forall i, In i (m_ifs s) -> same_traffic (i_traffic (h_if s' i)) (i_traffic (h_if t' i)).
Proof.
  intros HE HE' P [J D] U. destruct (whole_names f k s J E E' s' HE HE' P D U) as (t' & U' & A & B & C). exists t'. split; [exact U'|]. split; [|exact C].
  intros d Hd. split; [now apply A|]. intros i x y. now apply B.
Qed.
Print Assumptions C109_rename_nodes.
(** The same with LSPs for which there is room. *)
Theorem C109_lsps E E' k f s s' : env_ok E -> env_ok E' -> usual_room k s -> proper_names f s -> update_simulation E k s = (s', Ok tt) ->
  exists t', update_simulation E' k (rename_nodes f s) = (t', Ok tt) /\
    (forall l, In l (m_lsps s) -> same_fate (l_path (h_ls s' l)) (l_path (h_ls t' l)) /\ same_amount (l_res (h_ls s' l)) (l_res (h_ls t' l)) /\
       same_amount (l_setup (h_ls s' l)) (l_setup (h_ls t' l)) /\ (sole_road s l -> same_way (l_path (h_ls s' l)) (l_path (h_ls t' l)))) /\
    (shortcuts_off s -> (forall d, In d (m_dms s) -> same_paths (d_path (h_dm s' d)) (d_path (h_dm t' d))) /\
       ((forall d l, In d (m_dms s) -> preferred s' d l -> sole_road s l) -> forall i, In i (m_ifs s) -> same_traffic (i_traffic (h_if s' i)) (i_traffic (h_if t' i)))).
Proof.
  intros HE HE' R [J D] U. assert (Rt := nl_room f k s J D R). destruct (nl_succeeds f k s J D E E' HE HE' R (ex_intro _ _ U)) as (t' & U'). exists t'. split; [exact U'|]. split.
  - intros l Hl. destruct (nr_setup f E E' k s s' t' HE HE' J R Rt U U' l Hl) as (b & b' & S & S' & Sq). rewrite S, S'.
    destruct (nr_lsp f E E' k s s' t' HE HE' J R Rt U U' l Hl) as [(p & p' & c & c' & q & q' & P & P' & B & B' & Q & Q' & Eq)|(P & P' & Q & Q')]; rewrite P, P', Q, Q'; simpl.
    + split; [reflexivity|]. split; [now symmetry|]. split; [now symmetry|]. intros So. split; [exact (So p p' B B')|reflexivity].
    + split; [exact I|]. split; [exact I|]. split; [now symmetry|auto].
  - intros Off. split; [intros d Hd; exact (nr_paths f E E' k s s' t' HE HE' J R Rt U U' Off d Hd)|]. intros So i Hi. exact (nr_traffic f E E' k s s' t' HE HE' J R Rt U U' Off i Hi So).
Qed.
Print Assumptions C109_lsps.
(** A becomes the last name, D the first *)
Definition turned (x : string) : string := match x with "A" => "Z" | "B" => "Y" | "C" => "X" | "D" => "A" | _ => x end.
Definition c1z : st := fst (update_simulation E0 Flex (rename_nodes turned c1)).
Ltac apart_tac := intros a b Ha Hb He; vm_compute in Ha, Hb; repeat (destruct Ha as [<-|Ha]); try (destruct Ha; fail); repeat (destruct Hb as [<-|Hb]); try (destruct Hb; fail);
  (reflexivity || (exfalso; vm_compute in He; discriminate He)).
Example C109_example : plain Flex c1 /\ proper_names turned c1 /\ update_simulation E0 Flex c1 = (c2, Ok tt) /\ takes c2 0 [0; 2]%nat /\
  update_simulation E0 Flex (rename_nodes turned c1) = (c1z, Ok tt) /\ takes c1z 0 [0; 2]%nat /\ i_traffic (h_if c1z 2) = TNum 12 /\ dmd_from c1z 0 = "Z" /\
  renamed turned c1 (rename_nodes turned c1) /\ plain Flex (rename_nodes turned c1).
Proof.
  assert (P := sound_plain _ _ c1_sound). assert (N : proper_names turned c1).
  { split; [apart_tac|]. intros a x. vm_compute in x. repeat (destruct x as [<-|x]; [vm_compute; intuition discriminate|]). destruct x. }
  split; [exact P|]. split; [exact N|]. split; [exact c1_run|].
  split; [exists [[IIf 0; IIf 2]]%nat; split; [vm_compute; reflexivity|simpl; auto]|].
  split; [unfold c1z; apply run_split; vm_compute; reflexivity|].
  split; [exists [[IIf 0; IIf 2]]%nat; split; [vm_compute; reflexivity|simpl; auto]|].
  split; [vm_compute; reflexivity|]. split; [vm_compute; reflexivity|]. split; [apply whole_renamed, N|].
  apply wr_plain; [apply N|exact P|]. apply wr_texts; [apply N|reflexivity].
Qed.
Definition r1z : st := fst (update_simulation E0 Flex (rename_nodes turned r1)).
Example C109_lsps_example : with_room Flex r1 /\ proper_names turned r1 /\ update_simulation E0 Flex r1 = (r2, Ok tt) /\ (forall l, In l (m_lsps r1) -> sole_road r1 l) /\
  d_path (h_dm r2 0) = DPaths [[ILsp 0]; [ILsp 1]]%nat /\ (exists c b, l_path (h_ls r2 0) = PRouted [0; 2]%nat c b) /\
  update_simulation E0 Flex (rename_nodes turned r1) = (r1z, Ok tt) /\ lsp_from r1z 0 = "Z" /\ (exists c b, l_path (h_ls r1z 0) = PRouted [0; 2]%nat c b).
Proof.
  split; [exact (r1_room Flex)|]. split.
  { split; [apart_tac|]. intros a x. vm_compute in x. repeat (destruct x as [<-|x]; [vm_compute; intuition discriminate|]). destruct x. }
  split; [exact r1_run|]. split; [exact r1_sole|]. split; [vm_compute; reflexivity|]. split; [do 2 eexists; vm_compute; reflexivity|].
  split; [unfold r1z; apply run_split; vm_compute; reflexivity|]. split; [vm_compute; reflexivity|do 2 eexists; vm_compute; reflexivity].
Qed.
(** With '-' in the new names a PerformanceModel may refuse the network. *)
Definition apart : st := net [nd "p"; nd "q"; nd "r"; nd "t"] [itf "x" 1 10 0 1 1; itf "y" 1 10 1 0 1; itf "x" 1 10 2 3 2; itf "y" 1 10 3 2 2] [dmd 0 1 5 "d"] [] [].
Definition apart2 : st := fst (update_simulation E0 Perf apart).
Lemma apart_run : update_simulation E0 Perf apart = (apart2, Ok tt).
Proof. unfold apart2. apply run_split. vm_compute. reflexivity. Qed.
Lemma apart_plain : plain Perf apart.
Proof.
  split; [reflexivity|]. split; [posed0_tac|]. split; [known_tac|]. split; [intros X; discriminate X|].
  split; [agree_tac|]. vm_compute. nodup_tac.
Qed.
Definition dashed (x : string) : string := match x with "p" => "a-b" | "q" => "c" | "r" => "a" | "t" => "b-c" | _ => x end.
Theorem C109_dashes_refuted :
  ~ (forall E f s s', env_ok E -> plain Perf s -> plain Perf (rename_nodes f s) -> (forall a b, In a (all_names s) -> In b (all_names s) -> f a = f b -> a = b) ->
       update_simulation E Perf s = (s', Ok tt) -> exists t', update_simulation E Perf (rename_nodes f s) = (t', Ok tt)).
Proof.
  intros H. assert (J : forall a b, In a (all_names apart) -> In b (all_names apart) -> dashed a = dashed b -> a = b) by (clear; apart_tac).
  assert (T : texts_distinct (rename_nodes dashed apart)). { clear. intros a a' b b' Ha Ha' Hb Hb' _. vm_compute in Ha, Ha', Hb, Hb'. destruct Ha as [<-|[]], Ha' as [<-|[]], Hb as [<-|[]], Hb' as [<-|[]]. auto. }
  destruct (H E0 dashed apart apart2 E0_ok apart_plain (wr_plain dashed Perf apart J apart_plain T) J apart_run) as (t' & U). clear - U.
  apply (f_equal snd) in U. vm_compute in U. discriminate U.
Qed.
Print Assumptions C109_dashes_refuted.

(** ** C110 Parts of a network that are cut off *)
(** The paths of a demand depend on the links that can be reached from its source only. *)
Theorem C110_reachable E E' k N s t s' t' d : env_ok E -> env_ok E' -> plain k s -> plain k t -> same_part N s t -> no_way_out N s -> no_way_out N t ->
  update_simulation E k s = (s', Ok tt) -> update_simulation E' k t = (t', Ok tt) -> In d (m_dms s) -> In (dmd_from s d) N ->
  same_paths (d_path (h_dm s' d)) (d_path (h_dm t' d)) /\ forall i x y, adds k s' d i x -> adds k t' d i y -> (x == y)%Q.
Proof.
  intros HE HE' PS PT P C C' U U' Hd HN. split; [exact (part_paths N s t P C C' E E' k s' t' HE HE' PS PT U U' d Hd HN)|].
  intros i x y. exact (part_adds N s t P C C' E E' k s' t' HE HE' PS PT U U' d i x y Hd HN).
Qed.
Print Assumptions C110_reachable.
(** The traffic of the interfaces of a part that is cut off does not depend on the rest. *)
Theorem C110_traffic E E' k N s t s' t' i : env_ok E -> env_ok E' -> plain k s -> plain k t -> NoDup (m_dms s) -> NoDup (m_dms t) -> same_part N s t -> cut_off N s -> cut_off N t ->
  update_simulation E k s = (s', Ok tt) -> update_simulation E' k t = (t', Ok tt) -> In i (m_ifs s) -> In (loc s i) N ->
  same_traffic (i_traffic (h_if s' i)) (i_traffic (h_if t' i)).
Proof. intros HE HE' PS PT D D' P C C' U U' Hi HN. exact (part_traffic N s t P C C' E E' k s' t' HE HE' PS PT U U' i D D' Hi HN). Qed.
Print Assumptions C110_traffic.
(** [isl]: A=B and C=D=E *)
Definition isl (cost : Z) (cap : Q) (ds : list demand) : st := net [nd "A"; nd "B"; nd "C"; nd "D"; nd "E"]
  [itf "ab" 1 100 0 1 1; itf "ba" 1 100 1 0 1; itf "cd" cost 100 2 3 2; itf "dc" cost cap 3 2 2; itf "de" 1 100 3 4 3; itf "ed" 1 100 4 3 3] ds [] [].
Definition isl1 : st := isl 1 100 [dmd 0 1 12 "d0"; dmd 2 4 3 "d1"].
Definition isl2 : st := isl 7 100 [dmd 0 1 12 "d0"; dmd 2 3 5 "d1"; dmd 3 0 2 "d2"].
Definition isl3 : st := isl 7 90 [dmd 0 1 12 "d0"; dmd 2 3 5 "d1"; dmd 3 0 2 "d2"].
Ltac isl_plain := split; [reflexivity|]; split; [posed0_tac|]; split; [known_tac|]; split; [intros _ i H; vm_compute in H; in_tac; vm_compute; discriminate|]; split; [agree_tac|]; vm_compute; nodup_tac.
Lemma isl1_plain : plain Flex isl1. Proof. isl_plain. Qed.
Lemma isl2_plain : plain Flex isl2. Proof. isl_plain. Qed.
Lemma isl3_plain : plain Flex isl3. Proof. isl_plain. Qed.
Definition isl1r : st := fst (update_simulation E0 Flex isl1).
Definition isl2r : st := fst (update_simulation E0 Flex isl2).
Lemma isl1_run : update_simulation E0 Flex isl1 = (isl1r, Ok tt).
Proof. unfold isl1r. apply run_split. vm_compute. reflexivity. Qed.
Lemma isl2_run : update_simulation E0 Flex isl2 = (isl2r, Ok tt).
Proof. unfold isl2r. apply run_split. vm_compute. reflexivity. Qed.
Ltac cut_tac := let i := fresh "i" in let H := fresh "H" in intros i H _; vm_compute in H; in_tac; vm_compute; intuition discriminate.
Ltac which H := vm_compute in H; repeat (destruct H as [<-|H]); try (destruct H; fail).
Ltac part_tac := constructor;
  [intros i; split; intros [H X]; which H; ((split; [vm_compute; tauto|vm_compute; tauto]) || (exfalso; vm_compute in X; intuition discriminate))
  |intros i H X; which H; try (exfalso; vm_compute in X; intuition discriminate); repeat (split; [vm_compute; reflexivity|]); reflexivity
  |intros d; split; intros [H X]; which H; ((split; [vm_compute; tauto|vm_compute; tauto]) || (exfalso; vm_compute in X; intuition discriminate))
  |intros d H X; which H; try (exfalso; vm_compute in X; intuition discriminate); split; [split|]; vm_compute; reflexivity].
Lemma isl2_part : same_part ["A"; "B"] isl1 isl2. Proof. part_tac. Qed.
Lemma isl3_part : same_part ["A"; "B"] isl1 isl3. Proof. part_tac. Qed.
Example C110_example : plain Flex isl1 /\ plain Flex isl2 /\ same_part ["A"; "B"] isl1 isl2 /\ cut_off ["A"; "B"] isl1 /\ cut_off ["A"; "B"] isl2 /\ NoDup (m_dms isl1) /\ NoDup (m_dms isl2) /\
  takes isl1r 0 [0%nat] /\ takes isl2r 0 [0%nat] /\ i_traffic (h_if isl2r 0) = TNum 12 /\ i_traffic (h_if isl1r 2) = TNum 3 /\ i_traffic (h_if isl2r 2) = TNum 5.
Proof.
  split; [exact isl1_plain|]. split; [exact isl2_plain|]. split; [exact isl2_part|]. split; [cut_tac|]. split; [cut_tac|].
  split; [vm_compute; nodup_tac|]. split; [vm_compute; nodup_tac|].
  split; [exists [[IIf 0]]%nat; split; [vm_compute; reflexivity|simpl; auto]|]. split; [exists [[IIf 0]]%nat; split; [vm_compute; reflexivity|simpl; auto]|].
  split; [vm_compute; reflexivity|]. split; vm_compute; reflexivity.
Qed.
(** With LSPs for which there is room: those that start in the part, ... *)
Theorem C110_lsps E E' k N s t s' t' l : env_ok E -> env_ok E' -> usual_room k s -> usual_room k t -> NoDup (m_dms s) -> NoDup (m_dms t) -> same_part_lsps N s t -> no_road_out N s -> no_road_out N t ->
  update_simulation E k s = (s', Ok tt) -> update_simulation E' k t = (t', Ok tt) -> In l (m_lsps s) -> In (lsp_from s l) N ->
  same_fate (l_path (h_ls s' l)) (l_path (h_ls t' l)) /\ same_amount (l_res (h_ls s' l)) (l_res (h_ls t' l)) /\ same_amount (l_setup (h_ls s' l)) (l_setup (h_ls t' l)) /\
  (sole_road s l -> same_way (l_path (h_ls s' l)) (l_path (h_ls t' l))).
Proof.
  intros HE HE' R Rt D D' P C C' U U' Hl HN. destruct (pr_setup N E E' k s t s' t' HE HE' P D D' R Rt U U' l Hl HN) as (b & b' & S & S' & Sq). rewrite S, S'.
  destruct (pr_lsp N E E' k s t s' t' HE HE' P C C' D D' R Rt U U' l Hl HN) as [(p & p' & c & c' & q & q' & X & X' & B & B' & Q & Q' & Eq)|(X & X' & Q & Q')]; rewrite X, X', Q, Q'; simpl.
  - split; [reflexivity|]. split; [now symmetry|]. split; [now symmetry|]. intros So. split; [exact (So p p' B B')|reflexivity].
  - split; [exact I|]. split; [exact I|]. split; [now symmetry|auto].
Qed.
Print Assumptions C110_lsps.
(** ... the demands, ... *)
Theorem C110_lsps_demands E E' k N s t s' t' d : env_ok E -> env_ok E' -> with_room k s -> with_room k t -> NoDup (m_dms s) -> NoDup (m_dms t) -> same_part_lsps N s t -> no_road_out N s -> no_road_out N t ->
  update_simulation E k s = (s', Ok tt) -> update_simulation E' k t = (t', Ok tt) -> In d (m_dms s) -> In (dmd_from s d) N ->
  same_paths (d_path (h_dm s' d)) (d_path (h_dm t' d)) /\
  ((forall l, preferred s' d l -> sole_road s l) -> forall i x y, adds k s' d i x -> adds k t' d i y -> (x == y)%Q).
Proof.
  intros HE HE' R Rt D D' P C C' U U' Hd HN. split; [exact (pr_paths N E E' k s t s' t' HE HE' P C C' D D' R Rt U U' (rm_off _ _ R) (rm_off _ _ Rt) d Hd HN)|].
  intros So i x y. exact (pr_adds N E E' k s t s' t' HE HE' P C C' D D' R Rt U U' (rm_off _ _ R) (rm_off _ _ Rt) d Hd HN i x y So).
Qed.
Print Assumptions C110_lsps_demands.
(** ... and the traffic. *)
Theorem C110_lsps_traffic E E' k N s t s' t' i : env_ok E -> env_ok E' -> with_room k s -> with_room k t -> NoDup (m_dms s) -> NoDup (m_dms t) -> same_part_lsps N s t -> road_cut_off N s -> road_cut_off N t ->
  update_simulation E k s = (s', Ok tt) -> update_simulation E' k t = (t', Ok tt) -> In i (m_ifs s) -> In (loc s i) N ->
  (forall d l, In d (m_dms s) -> In (dmd_from s d) N -> preferred s' d l -> sole_road s l) -> same_traffic (i_traffic (h_if s' i)) (i_traffic (h_if t' i)).
Proof. intros HE HE' R Rt D D' P C C' U U'. exact (pr_traffic N E E' k s t s' t' i HE HE' P C C' D D' R Rt U U' (rm_off _ _ R) (rm_off _ _ Rt)). Qed.
Print Assumptions C110_lsps_traffic.
Definition isle (cost : Z) (ds : list demand) (ls : list lsp) : st := net [nd "A"; nd "B"; nd "C"; nd "D"; nd "E"]
  [itf "ab" 1 100 0 1 1; itf "ba" 1 100 1 0 1; itf "cd" cost 100 2 3 2; itf "dc" cost 100 3 2 2; itf "de" 1 100 3 4 3; itf "ed" 1 100 4 3 3] ds ls [].
Definition isle1 : st := isle 1 [dmd 0 1 10 "d0"; dmd 2 4 3 "d1"] [lsp_ 0 1 "l0"; lsp_ 0 1 "l1"; lsp_ 2 4 "l2"].
Definition isle2 : st := isle 7 [dmd 0 1 10 "d0"; dmd 4 2 6 "d1"] [lsp_ 0 1 "l0"; lsp_ 0 1 "l1"; lspc 4 0 "l2" 3; lsp_ 4 2 "l3"].
Lemma isle1_room : with_room Flex isle1. Proof. room_tac. Qed.
Lemma isle2_room : with_room Flex isle2. Proof. room_tac. Qed.
Definition isle1r : st := fst (update_simulation E0 Flex isle1).
Definition isle2r : st := fst (update_simulation E0 Flex isle2).
Lemma isle1_run : update_simulation E0 Flex isle1 = (isle1r, Ok tt).
Proof. unfold isle1r. apply run_split. vm_compute. reflexivity. Qed.
Lemma isle2_run : update_simulation E0 Flex isle2 = (isle2r, Ok tt).
Proof. unfold isle2r. apply run_split. vm_compute. reflexivity. Qed.
Lemma isle_part : same_part_lsps ["A"; "B"] isle1 isle2.
Proof.
  constructor;
  [intros i; split; intros [H X]; which H; ((split; [vm_compute; tauto|vm_compute; tauto]) || (exfalso; vm_compute in X; intuition discriminate))
  |intros i H X; which H; try (exfalso; vm_compute in X; intuition discriminate); repeat (split; [vm_compute; reflexivity|]); vm_compute; reflexivity
  |intros d; split; intros [H X]; which H; ((split; [vm_compute; tauto|vm_compute; tauto]) || (exfalso; vm_compute in X; intuition discriminate))
  |intros d H X; which H; try (exfalso; vm_compute in X; intuition discriminate); split; [split|]; vm_compute; reflexivity
  |intros l; split; intros [H X]; which H; ((split; [vm_compute; tauto|vm_compute; tauto]) || (exfalso; vm_compute in X; intuition discriminate))
  |intros l H X; which H; try (exfalso; vm_compute in X; intuition discriminate); repeat (split; [vm_compute; reflexivity|]); vm_compute; reflexivity].
Qed.
Lemma isle1_sole : forall l, In l (m_lsps isle1) -> sole_road isle1 l.
Proof.
  assert (S : sole_roads isle1) by (apply sole_by; [once_tac|intros i H; vm_compute in H; in_tac; vm_compute; discriminate|vm_compute; reflexivity]).
  intros l Hl p q. exact (S l p q Hl).
Qed.
Example C110_lsps_example : with_room Flex isle1 /\ with_room Flex isle2 /\ NoDup (m_dms isle1) /\ NoDup (m_dms isle2) /\ same_part_lsps ["A"; "B"] isle1 isle2 /\
  road_cut_off ["A"; "B"] isle1 /\ road_cut_off ["A"; "B"] isle2 /\ update_simulation E0 Flex isle1 = (isle1r, Ok tt) /\ update_simulation E0 Flex isle2 = (isle2r, Ok tt) /\
  (forall l, In l (m_lsps isle1) -> sole_road isle1 l) /\ d_path (h_dm isle1r 0) = DPaths [[ILsp 0]; [ILsp 1]]%nat /\ same_traffic (i_traffic (h_if isle2r 0)) (TNum 10) /\
  l_path (h_ls isle2r 2) = PUnrouted /\ same_traffic (i_traffic (h_if isle1r 2)) (TNum 3) /\ same_traffic (i_traffic (h_if isle2r 2)) (TNum 0).
Proof.
  split; [exact isle1_room|]. split; [exact isle2_room|]. split; [vm_compute; nodup_tac|]. split; [vm_compute; nodup_tac|]. split; [exact isle_part|]. split; [cut_tac|]. split; [cut_tac|].
  split; [exact isle1_run|]. split; [exact isle2_run|]. split; [exact isle1_sole|]. do 4 (split; [vm_compute; reflexivity|]). vm_compute; reflexivity.
Qed.
(** An error in another part makes the whole simulation fail. *)
Theorem C110_errors_refuted :
  ~ (forall E N s t s', env_ok E -> plain Flex s -> plain Flex t -> same_part N s t -> cut_off N s -> cut_off N t -> update_simulation E Flex s = (s', Ok tt) ->
       exists t', update_simulation E Flex t = (t', Ok tt)).
Proof.
  intros H. assert (P := isl3_part).
  assert (C : cut_off ["A"; "B"] isl1) by (clear; cut_tac). assert (C' : cut_off ["A"; "B"] isl3) by (clear; cut_tac).
  destruct (H E0 ["A"; "B"] isl1 isl3 isl1r E0_ok isl1_plain isl3_plain P C C' isl1_run) as (t' & U). clear - U. apply (f_equal snd) in U. vm_compute in U. discriminate U.
Qed.
Print Assumptions C110_errors_refuted.
