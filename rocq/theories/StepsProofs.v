(** Expansion as three steps: complete, write out, dissolve. *)
From Verif Require Import Base BaseFacts TreeFacts Types Arrays Expand SpecArray SpecExpand SpecExact SpecFlat SpecWritten SpecComplete SpecOpen ExpandProofs MeaningProofs WrittenProofs WrittenBack CompleteProofs CompleteBack OpenProofs.

(** Writing out derives nothing. *)
Lemma repeated_field m f l y : repeated (field_instance_of m) f l -> In y l -> underived_field f -> underived_field y.
Proof.
  intros [->|(is & I & ->)] Y [U1 U2]; [destruct Y as [<-|[]]; now split|]. apply in_map_iff in Y as (i & <- & Y).
  pose proof (instances_in _ _ _ _ I Y) as Q. destruct f as [j|j d]; cbn in Q; [subst i; now split|].
  destruct Q as (n & x & Q). decompose [and] Q. split; cbn [info] in *; congruence.
Qed.
Lemma repeated_register m r l y : repeated (register_instance_of m) r l -> In y l -> r_derived_from (info y) = r_derived_from (info r).
Proof.
  intros [->|(is & I & ->)] Y; [destruct Y as [<-|[]]; reflexivity|]. apply in_map_iff in Y as (i & <- & Y).
  pose proof (instances_in _ _ _ _ I Y) as Q. destruct r as [j|j d]; cbn in Q; [now subst i|]. destruct Q as (n & x & Q). decompose [and] Q. assumption.
Qed.
Lemma repeated_cluster m (c : cluster) l y : repeated (cluster_copy m) c l -> In y l -> c_derived_from (info y) = c_derived_from (info c).
Proof.
  intros [->|(is & I & ->)] Y; [destruct Y as [<-|[]]; reflexivity|]. apply in_map_iff in Y as (i & <- & Y).
  pose proof (instances_in _ _ _ _ I Y) as Q. destruct c as [j|j d]; cbn in Q; [now subst i|]. destruct Q as (n & _ & _ & Q). exact Q.
Qed.
Lemma repeated_peripheral m p l y : repeated (peripheral_instance_of m) p l -> In y l -> p_derived_from (info y) = p_derived_from (info p).
Proof.
  intros [->|(is & I & ->)] Y; [destruct Y as [<-|[]]; reflexivity|]. apply in_map_iff in Y as (i & <- & Y).
  pose proof (instances_in _ _ _ _ I Y) as Q. destruct p as [j|j d]; cbn in Q; [now subst i|]. destruct Q as (n & x & Q). decompose [and] Q. assumption.
Qed.
Lemma fields_underived m o o' : fields_written m o o' -> Forall underived_field (or_empty o) -> Forall underived_field (or_empty o').
Proof.
  destruct o as [fs|], o' as [fs'|]; cbn; try contradiction; [|constructor]. intros (ls & F & ->) U. apply Forall_forall. intros z Z.
  destruct (in_parts _ _ _ _ F Z) as (x & k & X & Wx & Z'). rewrite Forall_forall in U. exact (repeated_field _ _ _ _ Wx Z' (U x X)).
Qed.
Lemma child_written_underived m rc : forall l, child_written m rc l -> underived_child rc -> Forall underived_child l.
Proof.
  induction rc as [r|c IH] using rc_tree_ind; intros l W L; inversion W as [? o k F R|? ls k F R]; subst; inversion L as [? N Fs|? N Fs]; subst;
    apply Forall_map, Forall_forall; intros y Y.
  - constructor.
    + rewrite (repeated_register _ _ _ _ R Y). destruct r; exact N.
    + rewrite (repeated_registers _ _ _ _ _ R Y). exact (fields_underived m _ _ F Fs).
  - constructor.
    + rewrite (repeated_cluster _ _ _ _ R Y). destruct c; exact N.
    + rewrite (repeated_clusters _ _ _ _ _ R Y). apply Forall_forall. intros z Z. destruct (in_parts _ _ _ _ F Z) as (x & k' & X & Wx & Z').
      rewrite Forall_forall in IH, Fs. pose proof (IH x X k' Wx (Fs x X)) as G. rewrite Forall_forall in G. exact (G z Z').
Qed.
Lemma device_written_underived m d d' : device_written m d d' -> underived d -> underived d'.
Proof.
  intros (_ & ls & F & P) U. unfold underived in *. rewrite P. apply Forall_forall. intros y Y0. destruct (in_parts _ _ _ _ F Y0) as (p & k & X & (o & W & R) & Y).
  rewrite Forall_forall in U. destruct (U p X) as [D L]. split.
  - rewrite (repeated_peripheral _ _ _ _ R Y). destruct p; exact D.
  - rewrite (repeated_peripherals _ _ _ _ _ R Y). destruct (p_registers (info p)) as [rs|], o as [rs'|]; try contradiction; [|constructor].
    destruct W as (ls' & F' & ->). cbn [or_empty] in *. apply Forall_forall. intros z Z. destruct (in_parts _ _ _ _ F' Z) as (x & k' & X' & Wx & Z').
    rewrite Forall_forall in L. pose proof (child_written_underived m x k' Wx (L x X')) as G. rewrite Forall_forall in G. exact (G z Z').
Qed.

Lemma expand_steps fuel d e : expand Debug fuel d = Ok e ->
  exists d1 d2, device_completed d d1 /\ device_written Debug d1 d2 /\ device_single d2 /\ device_dissolved d2 e /\ flat_device e.
Proof.
  intros E. destruct (expand_complete _ _ _ _ E) as (d1 & C & U & E1). destruct (all_written _ _ _ _ U E1) as (d2 & W & S & E2).
  exists d1, d2. conjs; [exact C|exact W|exact S| |exact (expand_flat _ _ _ _ E)].
  exact (dissolve_device fuel d2 e S (device_written_underived _ _ _ W U) E2).
Qed.
Lemma steps_expand m d d1 d2 e : unambiguous d -> device_completed d d1 -> device_there d1 -> device_written m d1 d2 -> device_dissolved d2 e -> flat_device e ->
  exists k, forall fuel, (k <= fuel)%nat -> expand m fuel d = Ok e.
Proof.
  intros Un C T W D F. pose proof (device_completed_underived _ _ C) as U1. pose proof (device_written_underived _ _ _ W U1) as U2.
  destruct (dissolved_back m 1 d2 e e U2 D (expand_id m 0 e F)) as (k & K).
  exact (complete_back m k d d1 e Un C (expand_written_back _ _ _ _ _ U1 T W (K k (le_n k)))).
Qed.
