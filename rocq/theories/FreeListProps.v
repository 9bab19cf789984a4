(** Property theorems about free_list (C02). *)
From Verif Require Import Outcome FreeListModel FreeListHist.

(** C02.  A free list used legally behaves as a finite map: every call is
    accepted, an insertion returns an index that is not in use, live indices keep
    their values, and the count is the number of live indices. *)
Theorem C02_free_list_refines_map :
  ∀ (T : Type) (dflt : T) (l : free_list T) (m : gmap nat (T * option nat)),
  fl_hist dflt l m →
  fl_count l = Z.of_nat (size m) ∧
  (∀ i e, m !! i = Some e → fl_get l (Some i) = Ok e) ∧
  (∀ o, fl_legal m o → ∃ l' r, fl_step dflt l o = Ok (l', r) ∧ fl_result_ok m o r ∧
     fl_hist dflt l' (fl_next m o r)).
Proof. exact @fl_hist_refines. Qed.
Print Assumptions C02_free_list_refines_map.

(** A history with recycling: the index freed by the removal is handed out again. *)
Example C02_case :
  ∃ (l : free_list nat) m,
    fl_hist 0 l m ∧ m !! 0 = Some (12, None) ∧ m !! 1 = Some (11, None) ∧ fl_count l = 2%Z.
Proof.
  eexists _, (fl_next (fl_next (fl_next (fl_next ∅ (FInsert 10 None) (Some 0))
        (FInsert 11 None) (Some 1)) (FRemove 0) None) (FInsert 12 None) (Some 0)).
  split.
  - eapply flh_step; [eapply flh_step; [eapply flh_step; [eapply flh_step; [apply flh_init| |]| |]| |]| |];
      try (vm_compute; reflexivity); try exact I.
    simpl. rewrite lookup_insert_ne by done. rewrite lookup_insert. by eexists.
  - vm_compute. done.
Qed.
