claim("C25","proved","pending_core_update package_in_pipeline_once pipeline_accumulates_fresh","Reports are removed by hash, so the per-block theorem assumes pending reports have distinct hashes; package_in_pipeline_once shows this holds along every chain unless two different pending reports have the same hash.")
claim("C37","proved","historical_lookup_iff availability_flips records_reachable")
claim("C42","partial","disputes_accepted_iff disputes_epoch_refuted disputes_epoch_partial assurances_accepted_iff assurances_never_fail_later guarantees_accepted_iff accepted_tickets_all_kept preimages_accepted_iff preimages_integrated","Exact for assurances, guarantees and preimages. Disputes: verdicts of any future epoch are accepted (refuted); exact when the epoch is the current or previous one. Tickets: accepted tickets are all kept, with their order and attempt checks in the premise.")
p("C57","What was available at a past slot stays available for the retention period",
  "The historical lookup as of slot t gives the same answer in every state up to D slots later, for every service and hash, whatever services request, forget or provide in between.",
  "every history of requests, provisions and forgets","Refinement and auditing of a package repeat lookups at different times; only an argument over all histories shows they agree.",
  ["state/src/manager.rs: lookup_historical_preimage","pvm/pvm-host/src/host_functions/accumulate/mod.rs: solicit, forget","transition/src/state/services.rs"])
claim("C57","partial","lookup_stable_refuted lookup_stable_partial forget_effect forget_expiry_refuted","False in general: forgetting a second request for the same hash with another length deletes the live data. Proved when every forget uses the stored data's length and slots stay below 2^32 - D, where the code's addition wraps (forget_expiry_refuted).")
