(** Properties C84, C85: several options objects in one program. *)
From Verif Require Import Bytes Outcome Util Canonicalization Crypto SignatoryOptions SpecOptions OptionObjects SpecObjects ObjectsFacts Examples.

(** C84.  Options objects behave as values: every call answers, and every getter of every object
    shows, what it does when each object is a plain record of its own ([plain]).  Partial: no object is
    assigned to another (and no object is handed its own list, which is C85). *)
Theorem C84_values_partial : forall C ds d, unassigned (ds ++ [d]) -> unaliased (ds ++ [d]) ->
  reply_to C ds d = plain_reply C ds d /\ forall i,
  members (after C (ds ++ [d])) i = value (plain_after C (ds ++ [d])) i /\
  through (after C (ds ++ [d])) i = option_map o_main (value (plain_after C (ds ++ [d])) i).
Proof. exact objects_plain. Qed.
Print Assumptions C84_values_partial.
Example C84_values_case : let ds := [Make; Make; Call 0 (OnMain (SetDomain (esc "a.b"))); Call 1 (AddHeaders [esc "x"]); Pass 0 ToSet 1 Headers] in
  unassigned (ds ++ [Call 1 (OnMain (SetDomain (esc "-")))]) /\ unaliased (ds ++ [Call 1 (OnMain (SetDomain (esc "-")))]) /\
  reply_to toy ds (Call 1 (OnMain (SetDomain (esc "-")))) = Did perm /\
  option_map so_domain (through (after toy ds) 0) = Some (esc "a.b") /\ option_map so_domain (through (after toy ds) 1) = Some [] /\
  option_map (fun o => length (o_headers o)) (members (after toy ds) 0) = Some 32.
Proof.
  split; [repeat constructor|]. split; [repeat constructor; discriminate|]. repeat split; vm_compute; reflexivity.
Qed.
(** Each shows the calls made on it and no other calls, in whatever order the calls on the others come between. *)
Theorem C84_own_calls : forall C ds i o, only_calls ds -> members (after C ds) i = Some o ->
  o = run_ops C (calls_to i 0 ds) new_options /\ through (after C ds) i = Some (o_main o).
Proof. exact own_calls. Qed.
Print Assumptions C84_own_calls.
Example C84_own_calls_case : let ds := [Make; Make; Call 0 (OnMain (SetDomain (esc "a.b"))); Call 1 (OnMain (SetDomain (esc "c.d"))); End 0; Make] in
  only_calls ds /\ calls_to 1 0 ds = [OnMain (SetDomain (esc "c.d"))] /\ members (after toy ds) 1 <> None /\ members (after toy ds) 0 = None.
Proof.
  split; [repeat constructor|]. split; [vm_compute; reflexivity|]. split; [vm_compute; discriminate|]. vm_compute. reflexivity.
Qed.

(** Every assignment of one object to another ties the two together: they show the same key, domain,
    selector and algorithm from then on, whatever is set on which of them, *)
Theorem C84_shared : forall C ds i j rest, members (after C ds) i <> None -> members (after C ds) j <> None ->
  not_assigned i rest -> not_assigned j rest ->
  let w := after C (ds ++ Assign i j :: rest) in members w i <> None -> members w j <> None -> through w i = through w j.
Proof. exact assigned_shared. Qed.
Print Assumptions C84_shared.
(** a domain set on one is the domain of both, *)
Theorem C84_domain : forall C ds i j d, members (after C ds) i <> None -> through (after C ds) j <> None -> dotted d ->
  forall k l, k = i \/ k = j -> l = i \/ l = j ->
  option_map so_domain (through (after C (ds ++ [Assign i j; Call k (OnMain (SetDomain d))])) l) = Some d.
Proof. exact assigned_domain. Qed.
Print Assumptions C84_domain.
(** and when the one assigned from is destroyed, the pointers of the other lead nowhere. *)
Theorem C84_dangling : forall C ds i j, i <> j -> members (after C ds) i <> None -> members (after C ds) j <> None -> not_assigned j ds ->
  let w := after C (ds ++ [Assign i j; End j]) in members w i <> None /\ through w i = None.
Proof. exact assigned_dangling. Qed.
Print Assumptions C84_dangling.
(** So C84 is false: setting the domain of one object changes that of another and not what is signed with the one, *)
Theorem C84_assigned_refuted : exists ds, let w := after toy ds in
  ds = [Make; Make; Assign 0 1; Call 0 (OnMain (SetDomain (esc "a.b")))] /\
  option_map so_domain (through w 1) = Some (esc "a.b") /\ option_map so_domain (option_map o_main (value (plain_after toy ds) 1)) = Some [] /\
  option_map (fun o => map so_domain (all_signatures o)) (members w 0) = Some [[]].
Proof. eexists. split; [reflexivity|]. repeat split; vm_compute; reflexivity. Qed.
Print Assumptions C84_assigned_refuted.
(** and a setter of an object that lives works on memory that was freed. *)
Theorem C84_freed_refuted : exists ds, ds = [Make; Make; Assign 0 1; End 1] /\ members (after toy ds) 0 <> None /\
  reply_to toy ds (Call 0 (OnMain (SetDomain (esc "a.b")))) = Undefined /\ plain_reply toy ds (Call 0 (OnMain (SetDomain (esc "a.b")))) = Did (Ok tt).
Proof. eexists. split; [reflexivity|]. split; [vm_compute; discriminate|]. split; vm_compute; reflexivity. Qed.
Print Assumptions C84_freed_refuted.

(** What such a setter does: SetDomain and SetSelector refuse an argument that is no domain name before they use the pointers. *)
Theorem C84_gone : forall C ds i m, members (after C ds) i <> None -> through (after C ds) i = None ->
  (reply_to C ds (Call i (OnMain m)) = Undefined \/ reply_to C ds (Call i (OnMain m)) = Did perm) /\
  (reply_to C ds (Call i (OnMain m)) = Did perm <-> exists d, (m = SetDomain d \/ m = SetSelector d) /\ ~ dotted d).
Proof. exact gone_reply. Qed.
Print Assumptions C84_gone.
Example C84_gone_case : let ds := [Make; Make; Assign 0 1; End 1] in members (after toy ds) 0 <> None /\ through (after toy ds) 0 = None /\
  reply_to toy ds (Call 0 (OnMain (SetDomain (str "-")))) = Did perm.
Proof. exact gone_case. Qed.

(** C85.  A list of names handed over by reference to a getter's result works as a copy made before
    the call.  Partial: unless the call is [Undefined]; *)
Theorem C85_values_partial : forall C ds i t j x o p, members (after C ds) i = Some o -> members (after C ds) j = Some p ->
  reply_to C ds (Pass i t j x) <> Undefined ->
  members (after C (ds ++ [Pass i t j x])) i = members (after C (ds ++ [Call i (told t (names_of x p))])) i /\
  reply_to C ds (Pass i t j x) = reply_to C ds (Call i (told t (names_of x p))).
Proof. exact pass_told. Qed.
Print Assumptions C85_values_partial.
(** it is so exactly when an object is told to add, or to remove, its own names. *)
Theorem C85_exact : forall C ds i t j x, reply_to C ds (Pass i t j x) = Undefined <->
  i = j /\ x = Headers /\ exists o, members (after C ds) i = Some o /\ (t = ToAdd \/ t = ToDel /\ o_headers o <> []).
Proof. exact pass_exact. Qed.
Print Assumptions C85_exact.
Theorem C85_own_refuted : reply_to toy [Make] (Pass 0 ToDel 0 Headers) = Undefined /\ plain_reply toy [Make] (Pass 0 ToDel 0 Headers) = Did (Ok tt).
Proof. split; vm_compute; reflexivity. Qed.
Print Assumptions C85_own_refuted.
Example C85_case : let ds := [Make; Call 0 (SetOversignHeaders [esc "from"])] in
  reply_to toy ds (Pass 0 ToDel 0 Oversigned) = Did (Ok tt) /\
  option_map (fun o => (length (o_headers o), o_oversign o)) (members (after toy (ds ++ [Pass 0 ToDel 0 Oversigned])) 0) = Some (30, [esc "from"]).
Proof. split; vm_compute; reflexivity. Qed.
