(** LoadProofs.v - the lines and rows of a model file. *)
From Verif Require Import Base Graph Objects Sim Api Loader Spec SpecLoad GraphProofs MonadProofs Frames ApiFrames ObjProofs AddProofs.

(** ** Tab-separated fields *)

Lemma split_nonempty l : split_tab l <> [].
Proof. destruct l as [|c l]; simpl; [discriminate|]. destruct (Ascii.eqb c tab); [discriminate|]. destruct (split_tab l); discriminate. Qed.
Lemma concat_cons sep x y l : String.concat sep (x :: y :: l) = (x ++ sep ++ String.concat sep (y :: l))%string.
Proof. reflexivity. Qed.

Lemma split_tsv l : tsv (split_tab l) l.
Proof.
  split; [apply split_nonempty|]. induction l as [|c l [IH1 IH2]]; simpl.
  - split; [reflexivity|]. intros f [<-|[]]. simpl. auto.
  - destruct (Ascii.eqb_spec c tab) as [->|N].
    + split; [|intros f [<-|H]; [simpl; auto|auto]]. destruct (split_tab l) as [|x r] eqn:S; [now apply split_nonempty in S|].
      rewrite concat_cons. cbn [append]. now rewrite IH1.
    + destruct (split_tab l) as [|x r] eqn:S; [now apply split_nonempty in S|]. split.
      * destruct r; [simpl in *; now f_equal|]. rewrite concat_cons in *. cbn [append]. now f_equal.
      * intros f [<-|H]; [|apply IH2; right; auto]. simpl. intros [X|X]; [now apply N|]. apply (IH2 x); [left; auto|auto].
Qed.

Lemma split_app x l : ~ In tab_char (list_ascii_of_string x) ->
  split_tab (x ++ String tab_char l)%string = x :: split_tab l.
Proof.
  induction x as [|c x IH]; simpl; intros H; auto.
  destruct (Ascii.eqb_spec c tab) as [->|N]; [exfalso; apply H; auto|]. rewrite IH by auto. reflexivity.
Qed.
Lemma split_one x : ~ In tab_char (list_ascii_of_string x) -> split_tab x = [x].
Proof.
  induction x as [|c x IH]; simpl; intros H; auto.
  destruct (Ascii.eqb_spec c tab) as [->|N]; [exfalso; apply H; auto|]. rewrite IH by auto. reflexivity.
Qed.
Lemma tsv_split fs l : tsv fs l -> split_tab l = fs.
Proof.
  intros (N & -> & H). induction fs as [|x fs IH]; [congruence|]. destruct fs as [|y fs].
  - simpl. apply split_one. apply H. left; auto.
  - rewrite concat_cons. cbn [append]. rewrite split_app by (apply H; left; auto). f_equal. apply IH; [discriminate|]. intros f Hf. apply H. right; auto.
Qed.

(** ** Tables *)
Lemma line_index_some x l n : line_index x l = Some n -> exists pre post, l = pre ++ x :: post /\ ~ In x pre /\ n = List.length pre.
Proof.
  revert n. induction l as [|y l IH]; simpl; intros n H; [discriminate|].
  destruct (String.eqb_spec y x) as [->|N]; [injection H as <-; exists [], l; auto|].
  destruct (line_index x l) as [m|]; [|discriminate]. injection H as <-. destruct (IH m eq_refl) as (pre & post & -> & A & ->).
  exists (y :: pre), post. split; auto. split; auto. simpl. intros [X|X]; auto.
Qed.
Lemma line_index_none x l : line_index x l = None <-> ~ In x l.
Proof.
  induction l as [|y l IH]; simpl; [tauto|]. destruct (String.eqb_spec y x) as [->|N]; [split; [discriminate|intros H; exfalso; auto]|].
  destruct (line_index x l); [split; [discriminate|intros H]|]; [exfalso; assert (X : Some n = None) by (apply IH; auto); discriminate X|].
  split; auto. intros _ [X|X]; auto. now apply IH in X.
Qed.
Lemma line_index_app x pre post : ~ In x pre -> line_index x (pre ++ x :: post) = Some (List.length pre).
Proof.
  induction pre as [|y pre IH]; simpl; intros H; [now rewrite String.eqb_refl|].
  destruct (String.eqb_spec y x) as [->|N]; [exfalso; auto|]. now rewrite IH by auto.
Qed.

Lemma skipn_two {A} (pre : list A) x post : skipn (List.length pre + 2) (pre ++ x :: post) = tl post.
Proof. induction pre as [|y pre IH]; simpl; [destruct post; reflexivity|exact IH]. Qed.

Lemma slice_spec n lines : let rest := skipn n lines in
  exists body, slice n (find_end_index n lines) lines = body /\ ~ In "" body /\ (rest = body \/ exists more, rest = body ++ "" :: more).
Proof.
  cbv zeta. unfold find_end_index. destruct (line_index "" (skipn n lines)) as [m|] eqn:L.
  - apply line_index_some in L as (pre & post & E & N & ->). exists pre. unfold slice. replace (n + List.length pre - n)%nat with (List.length pre) by lia.
    rewrite E, firstn_app, Nat.sub_diag, firstn_all. simpl. rewrite app_nil_r. split; auto. split; auto. right. eauto.
  - apply line_index_none in L. exists (skipn n lines). auto.
Qed.

Lemma below_iff name lines rest : below name lines rest <->
  exists i, line_index name lines = Some i /\ rest = skipn (i + 2) lines.
Proof.
  split.
  - intros (pre & more & -> & N & ->). exists (List.length pre). split; [now apply line_index_app|]. now rewrite skipn_two.
  - intros (i & L & ->). apply line_index_some in L as (pre & post & -> & N & ->). exists pre, post. split; auto. split; auto. now rewrite skipn_two.
Qed.

Lemma body_unique (rest b1 b2 : list string) : ~ In "" b1 -> ~ In "" b2 ->
  (rest = b1 \/ exists m, rest = b1 ++ "" :: m) -> (rest = b2 \/ exists m, rest = b2 ++ "" :: m) -> b1 = b2.
Proof.
  revert b1 b2. induction rest as [|x rest IH]; intros b1 b2 N1 N2 H1 H2.
  - destruct b1, b2; auto; destruct H1 as [H1|(m & H1)], H2 as [H2|(m2 & H2)]; discriminate.
  - destruct b1 as [|y1 b1], b2 as [|y2 b2]; auto.
    + exfalso. destruct H1 as [H1|(m & H1)]; [discriminate|]. destruct H2 as [H2|(m2 & H2)]; injection H1 as -> ->; injection H2 as <- _; apply N2; left; auto.
    + exfalso. destruct H2 as [H2|(m & H2)]; [discriminate|]. destruct H1 as [H1|(m2 & H1)]; injection H2 as -> ->; injection H1 as <- _; apply N1; left; auto.
    + assert (y1 = x /\ y2 = x) as [-> ->] by (destruct H1 as [H1|(m & H1)], H2 as [H2|(m2 & H2)]; injection H1; injection H2; auto).
      f_equal. apply IH; [intros X; apply N1; right; auto|intros X; apply N2; right; auto| |].
      * destruct H1 as [H1|(m & H1)]; injection H1; eauto.
      * destruct H2 as [H2|(m & H2)]; injection H2; eauto.
Qed.

Lemma table_spec name lines :
  match table name lines with
  | Ok body => in_table name lines body
  | Err e => e = ValueError /\ ~ In name lines
  end.
Proof.
  unfold table. destruct (line_index name lines) as [i|] eqn:L; [|split; auto; now apply line_index_none].
  destruct (slice_spec (i + 2) lines) as (body & -> & N & H). exists (skipn (i + 2) lines). split; [|auto]. apply below_iff. eauto.
Qed.
Lemma in_table_table name lines body : in_table name lines body -> table name lines = Ok body.
Proof.
  intros (rest & B & N & H). assert (T := table_spec name lines). destruct (table name lines) as [b|e].
  - f_equal. destruct T as (rest' & B' & N' & H'). assert (rest' = rest).
    { apply below_iff in B as (i & L & ->), B' as (i' & L' & ->). congruence. }
    subst. eapply body_unique; eauto.
  - exfalso. destruct B as (pre & more & -> & _). apply (proj2 T). apply in_or_app. right. left. auto.
Qed.

(** ** Rows *)
Section Rows.
Variable k : kind.
Variable py_int : string -> option Z.
Variable py_float : string -> option Q.

Definition if_read (line : string) : option if_row :=
  match parse_if_line k line with
  | Ok x =>
      match py_int (il_cost x), py_int (il_cap x), match il_pct x with None => Some 100%Q | Some t => py_float t end with
      | Some c, Some p, Some q => if ((1 <=? c) && (0 <? p))%Z%bool then Some (mkIfRow (il_node x) (il_remote x) (il_name x) c p (il_cid x) (il_rsvp x) q) else None
      | _, _, _ => None
      end
  | Err _ => None
  end.

Lemma rsvp_flag_In v : rsvp_flag v = true <-> In v ["T"; "True"; "true"].
Proof. apply mem_str_In. Qed.

Lemma if_read_sound line r : if_read line = Some r -> if_row_of k py_int py_float line r.
Proof.
  unfold if_read. destruct (parse_if_line k line) as [x|e] eqn:P; [|discriminate].
  destruct (py_int (il_cost x)) as [c|] eqn:C; [|discriminate]. destruct (py_int (il_cap x)) as [p|] eqn:Q; [|discriminate].
  destruct (match il_pct x with None => Some 100%Q | Some t => py_float t end) as [q|] eqn:F; [|discriminate].
  destruct ((1 <=? c)%Z) eqn:C1; [|discriminate]. destruct ((0 <? p)%Z) eqn:C2; [|discriminate]. simpl. intros H. injection H as <-.
  apply Z.leb_le in C1. apply Z.ltb_lt in C2. exists (il_cost x), (il_cap x). simpl.
  assert (T := split_tsv line). unfold parse_if_line in P.
  destruct k; destruct (split_tab line) as [|x1 [|x2 [|x3 [|x4 [|x5 [|x6 [|x7 [|x8 [|x9 l]]]]]]]]] eqn:S; simpl in P; try discriminate;
    injection P as <-; simpl in *.
  - exists []. repeat split; auto. { left. injection F as <-; auto. } exists x6. split; auto.
  - exists [x7]. repeat split; auto. { right. exists x7. split; [apply rsvp_flag_In|]. left. injection F as <-. auto. } exists x6. split; auto.
  - exists [x7; x8]. repeat split; auto. { right. exists x7. split; [apply rsvp_flag_In|]. right. exists x8. auto. } exists x6. split; auto.
  - exists []. repeat split; auto; try apply T. left. injection F as <-; auto.
  - exists [x6]. repeat split; auto; try apply T. right. exists x6. split; [apply rsvp_flag_In|]. left. injection F as <-. auto.
  - exists [x6; x7]. repeat split; auto; try apply T. right. exists x6. split; [apply rsvp_flag_In|]. right. exists x7. auto.
Qed.

Lemma bool_iff (a b : bool) P : (a = true <-> P) -> (b = true <-> P) -> a = b.
Proof. destruct a, b; intuition. Qed.

Lemma if_read_complete line r : if_row_of k py_int py_float line r -> if_read line = Some r.
Proof.
  intros (cost & cap & fs & C & C1 & P & P1 & R & K). apply Z.leb_le in C1. apply Z.ltb_lt in P1.
  assert (X : exists v, parse_if_line k line = Ok (mkIfLine (ir_node r) (ir_remote r) (ir_name r) cost cap (ir_cid r) (ir_rsvp r) v) /\
     match v with None => Some 100%Q | Some t => py_float t end = Some (ir_pct r)).
  { unfold parse_if_line. destruct R as [(-> & -> & ->)|(v & V & [(-> & ->)|(q & -> & Q)])]; destruct k; [destruct K as (c & -> & T)|destruct K as (-> & T)|destruct K as (c & -> & T)|destruct K as (-> & T)|destruct K as (c & -> & T)|destruct K as (-> & T)];
      apply tsv_split in T; rewrite T; simpl; eexists; (split; [try rewrite (bool_iff _ _ _ V (rsvp_flag_In v)); reflexivity|auto]). }
  destruct X as (v & X & F). unfold if_read. rewrite X. simpl. rewrite C, P, F, C1, P1. simpl. destruct r; reflexivity.
Qed.

Definition num0 (t : option string) : Z := match t with Some x => match py_int x with Some n => n | None => 0%Z end | None => 0%Z end.
Lemma num0_spec t z : number_or_0 py_int t z <-> z = num0 t.
Proof. unfold number_or_0, num0. destruct t as [x|]; [|reflexivity]. destruct (py_int x); reflexivity. Qed.
Lemma int_or_zero_num t : int_or_zero py_int t = inject_Z (num0 t).
Proof. unfold int_or_zero, num0. destruct t as [x|]; [|reflexivity]. destruct (py_int x); reflexivity. Qed.

Definition nd_read (line : string) : option nd_row :=
  let fs := split_tab line in
  match shortcut_flag (nth_error fs 3) with
  | Ok b => Some (mkNdRow (nth 0 fs "") (num0 (nth_error fs 1)) (num0 (nth_error fs 2)) b)
  | Err _ => None
  end.
Lemma flag_spec t b : shortcut_flag t = Ok b <-> (t = None /\ b = false) \/ (t = Some "True" /\ b = true) \/ (t = Some "False" /\ b = false).
Proof.
  split.
  - destruct t as [x|]; simpl; [|intros H; injection H as <-; auto].
    destruct (String.eqb_spec x "True") as [->|N1]; [intros H; injection H as <-; auto|].
    destruct (String.eqb_spec x "False") as [->|N2]; [intros H; injection H as <-; auto|].
    intros H. exfalso. revert H. repeat (match goal with |- context [match ?x with EmptyString => _ | String _ _ => _ end] => destruct x; try discriminate
      | |- context [match ?a with Ascii _ _ _ _ _ _ _ _ => _ end] => destruct a as [[] [] [] [] [] [] [] []]; try discriminate end); congruence.
  - intros [(-> & ->)|[(-> & ->)|(-> & ->)]]; reflexivity.
Qed.
Lemma nd_read_iff line r : nd_read line = Some r <-> nd_row_of py_int line r.
Proof.
  unfold nd_read. split.
  - destruct (shortcut_flag _) as [b|] eqn:F; [|discriminate]. intros H; injection H as <-. exists (split_tab line). split; [apply split_tsv|]. simpl.
    split. { assert (N := split_nonempty line). destruct (split_tab line); [congruence|reflexivity]. }
    split; [now apply num0_spec|]. split; [now apply num0_spec|]. now apply flag_spec.
  - intros (fs & T & N & A & B & F). apply tsv_split in T. rewrite T. apply flag_spec in F. rewrite F. apply num0_spec in A, B. rewrite <- A, <- B.
    destruct fs as [|x fs]; [discriminate|]. simpl in N. injection N as ->. destruct r; reflexivity.
Qed.

Definition dm_read (line : string) : option dm_row :=
  let fs := split_tab line in
  match nth_error fs 0, nth_error fs 1, nth_error fs 2, nth_error fs 3 with
  | Some a, Some b, Some t, Some n =>
      match py_int t with
      | Some z => if (0 <=? z)%Z then Some (mkDmRow a b z (if String.eqb n "" then "none" else n)) else None
      | None => None
      end
  | _, _, _, _ => None
  end.
Lemma dm_read_iff line r : dm_read line = Some r <-> dm_row_of py_int line r.
Proof.
  unfold dm_read. split.
  - destruct (nth_error _ 0) as [a|] eqn:A; [|discriminate]. destruct (nth_error _ 1) as [b|] eqn:B; [|discriminate].
    destruct (nth_error _ 2) as [t|] eqn:T; [|discriminate]. destruct (nth_error _ 3) as [n|] eqn:N; [|discriminate].
    destruct (py_int t) as [z|] eqn:P; [|discriminate]. destruct (Z.leb_spec 0 z) as [L|]; [|discriminate]. intros H; injection H as <-.
    exists (split_tab line), t, n. simpl. split; [apply split_tsv|]. repeat split; auto. destruct (String.eqb_spec n ""); auto.
  - intros (fs & t & n & T & A & B & C & P & L & N & M). apply tsv_split in T. rewrite T, A, B, C, N, P. apply Z.leb_le in L. rewrite L.
    f_equal. destruct r; simpl in *. f_equal. destruct M as [(-> & ->)|(M & ->)]; auto. now destruct (String.eqb_spec n "").
Qed.

Definition ls_read (line : string) : option ls_row :=
  let fs := split_tab line in
  match nth_error fs 0, nth_error fs 1, nth_error fs 2 with
  | Some a, Some b, Some n => Some (mkLsRow a b n (readable py_float (nth_error fs 3)) (readable py_int (nth_error fs 4)))
  | _, _, _ => None
  end.
Lemma ls_read_iff line r : ls_read line = Some r <-> ls_row_of py_int py_float line r.
Proof.
  unfold ls_read. split.
  - destruct (nth_error _ 0) as [a|] eqn:A; [|discriminate]. destruct (nth_error _ 1) as [b|] eqn:B; [|discriminate].
    destruct (nth_error _ 2) as [n|] eqn:N; [|discriminate]. intros H; injection H as <-.
    exists (split_tab line). simpl. split; [apply split_tsv|]. auto 10.
  - intros (fs & T & A & B & N & C & D). apply tsv_split in T. rewrite T, A, B, N, <- C, <- D. destruct r; reflexivity.
Qed.
Lemma if_read_iff line r : if_read line = Some r <-> if_row_of k py_int py_float line r.
Proof. split; [apply if_read_sound|apply if_read_complete]. Qed.
End Rows.

(** ** First rows with a key *)
Section Firsts.
Context {A K : Type} (key : A -> K) (eqb : K -> K -> bool) (eqb_eq : forall a b, eqb a b = true <-> a = b).
Definition first_step (acc : list A) (r : A) : list A := if existsb (fun x => eqb (key x) (key r)) acc then acc else acc ++ [r].
Definition firsts (l : list A) : list A := fold_left first_step l [].
Lemma firsts_snoc l r : firsts (l ++ [r]) = first_step (firsts l) r.
Proof. unfold firsts. now rewrite fold_left_app. Qed.
Lemma step_true acc r : existsb (fun x => eqb (key x) (key r)) acc = true <-> exists x, In x acc /\ key x = key r.
Proof. rewrite existsb_exists. split; intros (x & H & X); exists x; split; auto; now apply eqb_eq. Qed.
Lemma firsts_key l x : In x l -> exists y, In y (firsts l) /\ key y = key x.
Proof.
  induction l as [|r l IH] using rev_ind; [intros []|]. rewrite firsts_snoc. unfold first_step. intros H. apply in_app_or in H.
  destruct (existsb _ _) eqn:X.
  - destruct H as [H|[<-|[]]]; auto. now apply step_true.
  - destruct H as [H|[<-|[]]]; [destruct (IH H) as (y & Y1 & Y2); exists y; split; auto; apply in_or_app; auto|]. exists r. split; auto. apply in_or_app; right; left; auto.
Qed.
Lemma firsts_sub l y : In y (firsts l) -> In y l.
Proof.
  induction l as [|z l IHl] using rev_ind; [intros []|]. rewrite firsts_snoc. unfold first_step.
  destruct (existsb _ _); rewrite ?in_app_iff; [auto|]. intros [?|?]; auto.
Qed.
Lemma firsts_In l r : In r (firsts l) <-> first_with key l r.
Proof.
  induction l as [|x l IH] using rev_ind.
  - simpl. split; [intros []|intros (pre & post & H & _); destruct pre; discriminate].
  - rewrite firsts_snoc. unfold first_step. destruct (existsb _ _) eqn:X.
    + rewrite IH. split; intros (pre & post & E & H).
      * exists pre, (post ++ [x]). rewrite E. split; auto. now rewrite <- app_assoc.
      * destruct post as [|y post _] using rev_ind.
        -- exfalso. apply app_inj_tail in E as [-> ->]. apply step_true in X as (y & Y1 & Y2).
           apply firsts_sub in Y1. apply (H y); auto.
        -- rewrite app_comm_cons, app_assoc in E. apply app_inj_tail in E as [-> ->]. exists pre, post. auto.
    + rewrite in_app_iff, IH. split.
      * intros [(pre & post & -> & H)|[->|[]]].
        -- exists pre, (post ++ [x]). split; auto. now rewrite <- app_assoc.
        -- exists l, []. split; auto. intros y Hy C. destruct (firsts_key l y Hy) as (z & Z1 & Z2).
           assert (T : existsb (fun x => eqb (key x) (key r)) (firsts l) = true) by (apply step_true; exists z; split; auto; congruence). congruence.
      * intros (pre & post & E & H). destruct post as [|y post _] using rev_ind.
        -- apply app_inj_tail in E as [-> ->]. right; left; auto.
        -- rewrite app_comm_cons, app_assoc in E. apply app_inj_tail in E as [-> ->]. left. exists pre, post. auto.
Qed.
End Firsts.
