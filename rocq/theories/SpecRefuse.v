(** Vocabulary for C81: why expansion refuses a device. Independent of the expansion code. *)
From Verif Require Import Base Types SpecArray SpecDerive SpecExpand.

(** Following references from [s] in a context ends at a reference to nothing or to the
    element one started from, and the error says which. [meant]: the path a reference
    means; [placed]: what is at a path; [self]: a reference to oneself. *)
Section Stuck.
  Context {A : Type}.
  Variables (k : ekind) (ref : A -> option string) (meant : list string -> string -> list string -> Prop)
            (placed : list string -> A -> Prop) (self : list string -> string -> list string -> Prop).
  Inductive stuck : list string -> string -> err -> Prop :=
    | su_missing ctx s path : meant ctx s path -> ~ self ctx s path -> (forall x, ~ placed path x) ->
        stuck ctx s (ENotFound k s)
    | su_self ctx s path : meant ctx s path -> self ctx s path -> stuck ctx s (ESelfDerived k (glue "." path))
    | su_next ctx s path x s' e : meant ctx s path -> ~ self ctx s path -> placed path x -> ref x = Some s' ->
        stuck (removelast path) s' e -> stuck ctx s e.
End Stuck.
Section Refused.
  Variable d : device.
  Definition peripheral_stuck (name : string) : list string -> string -> err -> Prop :=
    stuck KPeripheral (fun p => p_derived_from (info p)) (fun _ s path => path = [s]) (peripheral_placed d)
          (fun _ s _ => s = name).
  Definition cluster_stuck (name : string) : list string -> string -> err -> Prop :=
    stuck KCluster (fun c : cluster => c_derived_from (info c)) resolves (cluster_placed d) (fun ctx _ path => path = ctx ++ [name]).
  Definition register_stuck (name : string) : list string -> string -> err -> Prop :=
    stuck KRegister (fun r => r_derived_from (info r)) resolves (register_placed d) (fun ctx _ path => path = ctx ++ [name]).
  Definition field_stuck (name : string) : list string -> string -> err -> Prop :=
    stuck KField (fun f => f_derived_from (info f)) resolves (field_placed d) (fun ctx _ path => path = ctx ++ [name]).
  (** One name: no values of that name in the fields of the register. *)
  Definition no_values (ctx : list string) (s : string) : Prop :=
    exists parts, cut "." s parts /\
    match parts with
    | [n] => (forall r, ~ register_placed d (removelast ctx) r) \/
        exists r, register_placed d (removelast ctx) r /\
        forall f e, In f (or_empty (r_fields (info r))) -> ~ values_placed d (removelast ctx ++ [f_name (info f); n]) e
    | _ => exists path, resolves_values d ctx s path /\ forall e, ~ values_placed d path e
    end.
  Inductive values_stuck (name : option string) : list string -> string -> err -> Prop :=
    | sv_missing ctx s : no_values ctx s -> values_stuck name ctx s (ENotFound KValues s)
    | sv_self ctx s n : name = Some n -> s = n \/ resolves_values d ctx s (ctx ++ [n]) ->
        values_stuck name ctx s (ESelfDerived KValues (glue "." (ctx ++ [n])))
    | sv_next ctx s path x s' e : resolves_values d ctx s path -> values_placed d path x ->
        (forall n, name = Some n -> s <> n /\ path <> ctx ++ [n]) -> evs_derived_from x = Some s' ->
        values_stuck name (removelast path) s' e -> values_stuck name ctx s e.

  (** The elements that are expanded, and the context in which their references are read:
      those of the device, and those inherited by elements that are derived. *)
  Inductive child_read : list string -> register_cluster -> Prop :=
    | cr_top p chain p1 ctx rs rc : In p (d_peripherals d) ->
        follows_peripherals d (p_name (info p)) [] (p_derived_from (info p)) chain ->
        peripheral_from p (paths chain) p1 ->
        origin (fun x => p_registers (info x) = None) p chain [p_name (info p)] ctx ->
        p_registers (info p1) = Some rs -> In rc rs -> child_read ctx rc
    | cr_below ctx c chain c1 ctx' rc : child_read ctx (RCCluster c) ->
        follows_clusters d (c_name (info c)) ctx (c_derived_from (info c)) chain ->
        cluster_from c (paths chain) c1 ->
        origin (fun x : cluster => c_children (info x) = []) c chain (ctx ++ [c_name (info c)]) ctx' ->
        In rc (c_children (info c1)) -> child_read ctx' rc.
  Definition field_read (ctx' : list string) (f : field) : Prop :=
    exists ctx r chain r1 fs, child_read ctx (RCRegister r) /\
      follows_registers d (r_name (info r)) ctx (r_derived_from (info r)) chain /\
      register_from r (paths chain) r1 /\
      origin (fun x => r_fields (info x) = None) r chain (ctx ++ [r_name (info r)]) ctx' /\
      r_fields (info r1) = Some fs /\ In f fs.
  Definition values_read (ctx' : list string) (e : enumerated_values) : Prop :=
    exists ctx f chain f1, field_read ctx f /\
      follows_fields d (f_name (info f)) ctx (f_derived_from (info f)) chain /\
      field_from f (paths chain) f1 /\
      origin (fun x => f_enumerated_values (info x) = []) f chain (ctx ++ [f_name (info f)]) ctx' /\
      In e (f_enumerated_values (info f1)).
  (** Some element that is expanded has a reference that cannot be followed. *)
  Inductive refused (e : err) : Prop :=
    | re_peripheral p s : In p (d_peripherals d) -> p_derived_from (info p) = Some s ->
        peripheral_stuck (p_name (info p)) [] s e -> refused e
    | re_cluster ctx c s : child_read ctx (RCCluster c) -> c_derived_from (info c) = Some s ->
        cluster_stuck (c_name (info c)) ctx s e -> refused e
    | re_register ctx r s : child_read ctx (RCRegister r) -> r_derived_from (info r) = Some s ->
        register_stuck (r_name (info r)) ctx s e -> refused e
    | re_field ctx f s : field_read ctx f -> f_derived_from (info f) = Some s ->
        field_stuck (f_name (info f)) ctx s e -> refused e
    | re_values ctx v s : values_read ctx v -> evs_derived_from v = Some s ->
        values_stuck (evs_name v) ctx s e -> refused e.
End Refused.
(** Following the references of peripherals from a name leads to a name, in one or more steps. *)
Inductive leads (d : device) : string -> string -> Prop :=
  | le_one a p b : peripheral_placed d [a] p -> p_derived_from (info p) = Some b -> leads d a b
  | le_more a p b c : peripheral_placed d [a] p -> p_derived_from (info p) = Some b -> leads d b c -> leads d a c.
