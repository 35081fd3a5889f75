(** Proofs for C106. *)
From Verif Require Import Base BaseFacts Types TreeFacts SpecArray SpecExpand SpecExact SpecDistinct.

Section Distinct.
  Variable d : device.
  Lemma own_name {A} (name : A -> string) x : is_called name x (name (info x)).
  Proof using. now left. Qed.
  Lemma placed_somewhere path kids : children_placed d path kids -> path <> [].
  Proof using. intros H. destruct H as [path p (n & -> & _)|path n kids c _ _ _]; [discriminate|]. now destruct path. Qed.

  Section There.
    Hypothesis N : names_distinct d.
    Lemma kids_unique path kids : children_placed d path kids -> block_distinct kids /\ forall kids', children_placed d path kids' -> kids = kids'.
    Proof using N.
      destruct N as [Np Nb]. intros H. induction H as [path p P|path n kids c K [B IH] I C].
      - destruct P as (n & -> & Ip & Cp). split; [exact (Nb p Ip)|]. intros kids' H'. remember [n] as w eqn:E.
        destruct H' as [path q (n' & -> & Iq & Cq)|path n' kids c H' _ _].
        + injection E as ->. now rewrite (Np p q Ip Iq n Cp Cq).
        + exfalso. apply (placed_somewhere _ _ H'). destruct path as [|a [|b l]]; [reflexivity|discriminate E..].
      - inversion B as [_ Bc _ Bk]. split; [exact (Bk c I)|]. intros kids' H'. remember (path ++ [n])%list as w eqn:E.
        destruct H' as [w q (n' & -> & Iq & Cq)|path' n' kids0 c' H' I' C'].
        + exfalso. apply (placed_somewhere _ _ K). destruct path as [|a [|b l]]; [reflexivity|discriminate E..].
        + apply app_inj_tail in E as [-> ->]. pose proof (IH _ H'). subst kids0. now rewrite (Bc c c' I I' n C C').
    Qed.
    Lemma registers_unique path x y : register_placed d path x -> register_placed d path y ->
      x = y /\ fields_distinct (or_empty (r_fields (info x))).
    Proof using N.
      intros (b & n & kids & -> & K & I & C) (b' & n' & kids' & E & K' & I' & C'). apply app_inj_tail in E as [<- <-].
      destruct (kids_unique _ _ K) as [B U]. pose proof (U _ K'). subst kids'. inversion B as [Br _ Bf _].
      split; [exact (Br x y I I' n C C')|exact (Bf x I)].
    Qed.
    Lemma fields_unique path x y : field_placed d path x -> field_placed d path y -> x = y.
    Proof using N.
      intros (b & n & r & -> & R & I & C) (b' & n' & r' & E & R' & I' & C'). apply app_inj_tail in E as [<- <-].
      destruct (registers_unique _ _ _ R R') as [<- [F _]]. exact (F x y I I' n C C').
    Qed.
    (** The field that a set of values is in, and the register around it *)
    Lemma values_where reg r f n e : register_placed d reg r -> In f (or_empty (r_fields (info r))) ->
      values_placed d (reg ++ [f_name (info f); n])%list e -> In e (f_enumerated_values (info f)) /\ evs_name e = Some n.
    Proof using N.
      intros R I (b & n' & g & E & G & J & Q). change [f_name (info f); n] with ([f_name (info f)] ++ [n])%list in E.
      rewrite app_assoc in E. apply app_inj_tail in E as [<- <-].
      assert (F : field_placed d (reg ++ [f_name (info f)])%list f) by (exists reg, (f_name (info f)), r; conjs; auto using own_name).
      rewrite (fields_unique _ _ _ F G). now split.
    Qed.
    Lemma distinct_unambiguous : unambiguous d.
    Proof using N.
      split.
      - intros path x y (n & -> & I & C) (n' & E & I' & C'). injection E as <-. exact (proj1 N x y I I' n C C').
      - intros path x y (b & n & kids & -> & K & I & C) (b' & n' & kids' & E & K' & I' & C'). apply app_inj_tail in E as [<- <-].
        destruct (kids_unique _ _ K) as [B U]. pose proof (U _ K'). subst kids'. inversion B as [_ Bc _ _]. exact (Bc x y I I' n C C').
      - intros path x y R R'. exact (proj1 (registers_unique _ _ _ R R')).
      - exact fields_unique.
      - intros path x y (b & n & f & -> & F & I & Q) (b' & n' & f' & E & F' & I' & Q'). apply app_inj_tail in E as [<- <-].
        rewrite <- (fields_unique _ _ _ F F') in *. destruct F as (reg & k & r & _ & R & J & _).
        destruct (registers_unique _ _ _ R R) as [_ [_ V]]. exact (proj2 (V f f x y n J J I I' Q Q')).
      - intros reg r f g n x y R If Ig X Y. destruct (values_where _ _ _ _ _ R If X) as [Ix Ex], (values_where _ _ _ _ _ R Ig Y) as [Iy Ey].
        destruct (registers_unique _ _ _ R R) as [_ [_ V]]. now rewrite (proj1 (V f g x y n If Ig Ix Iy Ex Ey)).
    Qed.
  End There.

  Section Back.
    Hypothesis U : unambiguous d.
    Lemma fields_back reg r : register_placed d reg r -> fields_distinct (or_empty (r_fields (info r))).
    Proof using U.
      intros R. assert (T : forall f g, In f (or_empty (r_fields (info r))) -> In g (or_empty (r_fields (info r))) -> told_apart f_name f g).
      { intros f g If Ig n Cf Cg. apply (un_fields d U (reg ++ [n])%list); exists reg, n, r; auto. }
      split; [exact T|]. intros f g e e' n If Ig Ie Ie' E E'.
      assert (P : forall h v, In h (or_empty (r_fields (info r))) -> In v (f_enumerated_values (info h)) -> evs_name v = Some n ->
                  values_placed d (reg ++ [f_name (info h); n])%list v).
      { intros h v Ih Iv Ev. exists (reg ++ [f_name (info h)])%list, n, h. conjs; [now rewrite <- app_assoc| |exact Iv|exact Ev].
        exists reg, (f_name (info h)), r. conjs; auto using own_name. }
      pose proof (P f e If Ie E) as V. pose proof (P g e' Ig Ie' E') as V'.
      pose proof (un_names d U reg r f g n e e' R If Ig V V') as Q.
      assert (X : f = g). { apply (T f g If Ig (f_name (info f))); [apply own_name|rewrite Q; apply own_name]. }
      split; [exact X|]. subst g. exact (un_values d U _ _ _ V V').
    Qed.
    Definition inside (rc : register_cluster) : Prop :=
      match rc with RCRegister _ => True | RCCluster c => forall path, children_placed d path (c_children (info c)) -> block_distinct (c_children (info c)) end.
    Lemma one_level path kids : children_placed d path kids -> Forall inside kids -> block_distinct kids.
    Proof using U.
      intros K F. constructor.
      - intros r r' I I' n C C'. apply (un_registers d U (path ++ [n])%list); exists path, n, kids; auto.
      - intros c c' I I' n C C'. apply (un_clusters d U (path ++ [n])%list); exists path, n, kids; auto.
      - intros r I. apply (fields_back (path ++ [r_name (info r)])%list). exists path, (r_name (info r)), kids. auto using own_name.
      - intros c I. rewrite Forall_forall in F. apply (F _ I (path ++ [c_name (info c)])%list).
        exact (cp_cluster d path (c_name (info c)) kids c K I (own_name c_name c)).
    Qed.
    Lemma all_inside rc : inside rc.
    Proof using U.
      induction rc as [r|c IH] using rc_tree_ind; [exact I|]. intros path K. exact (one_level path _ K IH).
    Qed.
    Lemma unambiguous_distinct : names_distinct d.
    Proof using U.
      split.
      - intros p q Ip Iq n Cp Cq. apply (un_peripherals d U [n]); exists n; auto.
      - intros p Ip. apply (one_level [p_name (info p)]).
        + apply cp_peripheral. exists (p_name (info p)). auto using own_name.
        + apply Forall_forall. intros rc _. apply all_inside.
    Qed.
  End Back.
End Distinct.
