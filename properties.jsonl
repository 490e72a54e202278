{"id": "C01", "title": "Policy rules form a set", "statement": "Through AddRule/RemoveRule/ClearPolicy a policy (p) section behaves like a mathematical set of rules: AddRule returns true exactly when the rule was absent and makes it present, RemoveRule returns true exactly when it was present and makes it absent, every other rule is unaffected, and enumeration yields exactly the present rules once each (for rules whose values contain no comma).", "quantifier": "every finite history of add/remove/clear calls, every rule, every enumeration order", "why_tests_cant": "A test fixes a handful of histories; the claim is about every history and every rule.", "anchors": ["model/policy/policy.go:Policy.AddRule,RemoveRule,Range,Clear", "util/util.go:Hash", "model/model.go:AddRule,RemoveRule"]}
{"id": "C02", "title": "Distinct rules never interfere", "statement": "Adding or removing one rule never changes whether a different rule is reported as present, for arbitrary string values (including values that contain commas).", "quantifier": "every pair of distinct rules and every history", "why_tests_cant": "Interference needs a colliding pair of values that a sampled test does not pick.", "anchors": ["util/util.go:Hash", "model/policy/policy.go:AddRule,RemoveRule"]}
{"id": "C03", "title": "Role rules form a set of links", "statement": "Without role matchers, AddRule/RemoveRule on a grouping section (g) behave like set insertion/removal of (user, role) links with exact boolean results, and enumeration yields exactly the current links once each.", "quantifier": "every finite history of grouping-rule additions and removals, every pair of names", "why_tests_cant": "Unbounded histories; links share mutable role objects, so interference between names is only excluded by an invariant.", "anchors": ["rbac/role_policy.go", "rbac/role_manager.go:AddLink,DeleteLink,Range", "rbac/role.go:addRole,removeRole"]}
{"id": "C04", "title": "RangeRules enumerates the whole rule set", "statement": "Model.RangeRules with a callback that never stops enumerates exactly the rules currently held by all p and g sections, each once and prefixed with its section key.", "quantifier": "every model state reachable through AddRule/RemoveRule, every iteration order", "why_tests_cant": "Go map order is random and rule sets are unbounded.", "anchors": ["model/model.go:RangeRules", "model/policy/policy.go:Range", "rbac/role_policy.go:Range"]}
{"id": "C05", "title": "RangeRules stops when the callback says so", "statement": "After the callback passed to RangeRules returns false it is not called again.", "quantifier": "every rule set with any number of sections, every callback", "why_tests_cant": "Needs several sections and the stop to occur before the last one; order is random.", "anchors": ["model/model.go:RangeRules", "rbac/role_manager.go:rangeLinks", "rbac/domain_manager.go:rangeLinks"]}
{"id": "C06", "title": "Rules of unknown sections are rejected without effect", "statement": "AddRule/RemoveRule whose first value names no defined section return false and an error, and change neither rules, nor matchers, nor the storage queue.", "quantifier": "every model state and every rule", "why_tests_cant": "Absence of any effect on the whole state cannot be observed by sampling.", "anchors": ["model/model.go:AddRule,RemoveRule,addPolicyRule,addRoleRule"]}
{"id": "C07", "title": "Rule events mirror the rule set", "statement": "A listener on RULE_ADDED/RULE_REMOVED sees an event exactly when the rule set changes, carrying the rule given by the caller; replaying the events on an empty set rebuilds the current rule set.", "quantifier": "every history of AddRule/RemoveRule calls", "why_tests_cant": "Histories are unbounded and the claim is about their exact event trace.", "anchors": ["model/model.go:AddRule,RemoveRule", "storage/controller.go:addListener"]}
{"id": "C08", "title": "Matcher compilation preserves the boolean meaning", "statement": "The stage tree built from a matcher expression accepts a (request, rule) pair exactly when the written boolean expression over &&, || and parentheses is true.", "quantifier": "every matcher expression built from atoms with &&, || and parentheses, of any size", "why_tests_cant": "Expressions are unbounded; the failing shapes need a disjunction followed by a parenthesised conjunction.", "anchors": ["model/defs/matcher_def.go:nextOperator,buildExprTree"]}
{"id": "C09", "title": "Every accepted matcher can be evaluated", "statement": "A matcher expression that builds without error never makes AddRule, Enforce or Filter panic.", "quantifier": "every matcher expression, every rule set", "why_tests_cant": "The panic depends on the number of disjuncts at one level of the expression.", "anchors": ["model/matcher/matcher.go:NewMatcherNode,addRuleHelper,rangeMatchesHelper", "model/defs/matcher_def.go:buildExprTree"]}
{"id": "C10", "title": "Policy indexing is transparent", "statement": "For a non-empty rule set built by any history of additions, Filter returns exactly the rules for which the matcher expression evaluates to true: the staged index loses no rule and adds none.", "quantifier": "every matcher tree, every rule set, every insertion order, every request, every map iteration order", "why_tests_cant": "Equivalence of an index with a full scan is a universally quantified statement over unbounded rule sets.", "anchors": ["model/matcher/matcher.go:addRuleHelper,rangeMatches,rangeMatchesHelper", "model/model.go:RangeMatches"]}
{"id": "C11", "title": "Removed rules stop matching", "statement": "After RemoveRule(rule) no later Enforce or Filter call reports that rule, and rules that are still present keep being reported.", "quantifier": "every history of additions and removals, every request", "why_tests_cant": "Index maintenance under arbitrary interleavings of adds and removes.", "anchors": ["model/matcher/matcher.go:removeRuleHelper"]}
{"id": "C12", "title": "Revoking all access denies", "statement": "A request that matches no present rule of a non-empty rule history is denied: removing a rule never leaves behind a match that is not a present rule.", "quantifier": "every history of additions and removals, every request", "why_tests_cant": "The stale index nodes appear only after particular remove sequences and matcher shapes.", "anchors": ["model/matcher/matcher.go:removeRuleHelper,rangeMatches"]}
{"id": "C13", "title": "Filter reports each rule once", "statement": "Filter returns no rule twice.", "quantifier": "every matcher, every rule set, every request", "why_tests_cant": "Requires reasoning over all overlapping disjuncts.", "anchors": ["enforcer.go:FilterWithContext", "model/matcher/matcher.go:rangeMatchesHelper"]}
{"id": "C14", "title": "Empty policy is evaluated against one blank rule", "statement": "With no rules ever added, a matcher is evaluated exactly as if the policy held one rule whose every value is the empty string.", "quantifier": "every matcher tree, every request", "why_tests_cant": "Universally quantified over matchers and requests.", "anchors": ["model/matcher/matcher.go:rangeMatches"]}
{"id": "C15", "title": "Evaluation errors are reported", "statement": "If evaluating the matcher on some rule fails, Enforce/Filter return an error (and Enforce does not allow the request).", "quantifier": "every matcher, rule set, request and iteration order", "why_tests_cant": "Errors that occur in a later stage depend on which rules and stages are visited, in random order.", "anchors": ["model/matcher/matcher.go:rangeMatches,rangeMatchesHelper", "enforcer.go:enforce"]}
{"id": "C16", "title": "Stage evaluation depends only on the rule itself", "statement": "Whether a rule is matched depends on that rule's own values and the request, not on which other rules share values with it.", "quantifier": "every matcher (including eval()), rule set and insertion order", "why_tests_cant": "Needs rules that share an index node but differ in a value that is consulted indirectly.", "anchors": ["model/matcher/matcher.go:addRuleHelper,generateEvalFunction", "model/defs/matcher_def.go:NewMatcherStage"]}
{"id": "C17", "title": "Decisions do not depend on map iteration order", "statement": "Two Enforce calls with the same arguments on the same state return the same decision.", "quantifier": "every rule set, request and every pair of iteration orders", "why_tests_cant": "Go randomises map order; a test sees one order per run.", "anchors": ["enforcer.go:enforce", "model/effector/default_effector.go:MergeEffects"]}
{"id": "C18", "title": "Allow-override decision", "statement": "With effect some(where (p.eft == allow)), Enforce allows exactly when at least one matching rule has effect allow.", "quantifier": "every sequence of matching rules and effects, every iteration order", "why_tests_cant": "Early termination must be sound for every order and length.", "anchors": ["model/effector/default_effector.go", "enforcer.go:enforce"]}
{"id": "C19", "title": "Deny-override decision", "statement": "With effect !some(where (p.eft == deny)), Enforce denies exactly when at least one matching rule has effect deny.", "quantifier": "every sequence of matching rules and effects, every iteration order", "why_tests_cant": "Early termination must be sound for every order and length.", "anchors": ["model/effector/default_effector.go", "enforcer.go:enforce"]}
{"id": "C20", "title": "Allow-and-no-deny decision", "statement": "With effect some(where (p.eft == allow)) && !some(where (p.eft == deny)), Enforce allows exactly when some matching rule has effect allow and none has effect deny.", "quantifier": "every sequence of matching rules and effects, every iteration order", "why_tests_cant": "Depends on which matching rule happens to come first.", "anchors": ["model/effector/default_effector.go:MergeEffects (complete)", "enforcer.go:enforce"]}
{"id": "C21", "title": "Unsupported effects fail closed", "statement": "With an effect expression the library does not support, Enforce never allows a request, whatever the rules.", "quantifier": "every unsupported effect expression, every sequence of matches", "why_tests_cant": "Universally quantified over effect strings and matches.", "anchors": ["model/effector/default_effector.go", "enforcer.go:enforce"]}
{"id": "C22", "title": "Unsupported effects are reported", "statement": "With an unsupported effect expression Enforce returns a non-nil error.", "quantifier": "every unsupported effect expression, every sequence of matches", "why_tests_cant": "The error is produced in a callback and must reach the caller on all paths.", "anchors": ["enforcer.go:enforce (lines 332-341)"]}
{"id": "C23", "title": "Effect column semantics", "statement": "A rule's effect is allow when the policy has no eft column or the column is empty/allow, deny when it is deny, and indeterminate otherwise; a rule that omits a trailing eft column counts as allow.", "quantifier": "every policy definition, every rule", "why_tests_cant": "Depends on the relation between rule length, column index and the key prefix for all lengths.", "anchors": ["model/defs/defs.go:GetEft,GetParameter"]}
{"id": "C24", "title": "Named parameters select the named column", "statement": "p.<name> (r.<name>) evaluates to the value in the column at which <name> is declared.", "quantifier": "every definition, every rule or request of any length", "why_tests_cant": "Holds for some lengths and not for others; requires case analysis over all of them.", "anchors": ["model/defs/defs.go:PolicyDef.GetParameter,RequestDef.GetParameter,NewPolicyDef"]}
{"id": "C25", "title": "Literals in matchers are taken literally", "statement": "A string literal written in a matcher expression is compared as written.", "quantifier": "every matcher text", "why_tests_cant": "Only literals with particular contents are rewritten.", "anchors": ["model/defs/defs.go:ArgReg", "model/defs/matcher_def.go:Build"]}
{"id": "C26", "title": "HasLink is bounded reachability", "statement": "Without matchers, HasLink(a, b) holds exactly when a = b or there is a chain of at least one and at most maxHierarchyLevel-1 links from a to b; cycles never make it diverge or miss a link.", "quantifier": "every link history, every pair of names, every hierarchy bound", "why_tests_cant": "Reachability over all graphs, including cyclic ones.", "anchors": ["rbac/role_manager.go:HasLink,hasLinkHelper"]}
{"id": "C27", "title": "Role queries are read-only", "statement": "HasLink, GetRoles and GetUsers on a role manager leave every later answer unchanged, including for names never seen before and with a pattern matcher installed.", "quantifier": "every state reachable by adding and deleting links, every sequence of queries", "why_tests_cant": "Queries temporarily insert roles; non-interference is a two-run property over all states.", "anchors": ["rbac/role_manager.go:getRole,removeRole,HasLink,GetRoles,GetUsers"]}
{"id": "C28", "title": "GetRoles and GetUsers are exact and inverse", "statement": "Without matchers GetRoles(u) is exactly the set of r with a link u->r, GetUsers(r) exactly the set of u with such a link.", "quantifier": "every link history and every name", "why_tests_cant": "Two separately maintained maps must agree after any history.", "anchors": ["rbac/role.go:addRole,removeRole,getRoles,getUsers"]}
{"id": "C29", "title": "Pattern roles", "statement": "With a role matcher, a link from a pattern applies to every name the pattern matches and a link to a pattern grants every known name it matches, independent of the order in which names and patterns were added.", "quantifier": "every matcher function, every insertion order of links, every query", "why_tests_cant": "Order independence is universally quantified over permutations of histories.", "anchors": ["rbac/role_manager.go:getRole,rangeMatchingRoles,rangeMatchingPatterns", "rbac/role.go:rangeRoles"]}
{"id": "C30", "title": "Match caching is transparent", "statement": "The role/domain pattern match used by HasLink always equals the configured matching function, whatever was asked before.", "quantifier": "every sequence of match queries, every matching function", "why_tests_cant": "Wrong answers need a cache-key collision or an eviction interaction deep in a history.", "anchors": ["rbac/role_manager.go:match", "rbac/domain_manager.go:match", "util/cache.go"]}
{"id": "C31", "title": "LRU cache contract", "statement": "The cache never holds more than its capacity; Get returns a value only for a stored key; when full, Put evicts exactly the least recently used key; the linked list and the map always hold the same nodes.", "quantifier": "every sequence of Get/Put calls, every capacity >= 1", "why_tests_cant": "Pointer-structure invariant over unbounded operation sequences.", "anchors": ["util/cache.go:LRUCache"]}
{"id": "C32", "title": "A cache Get returns the last Put", "statement": "Get(k) after Put(k, v) (and no eviction of k) returns v.", "quantifier": "every sequence of Get/Put calls", "why_tests_cant": "Only overwriting an existing key shows the difference.", "anchors": ["util/cache.go:Put"]}
{"id": "C33", "title": "Domains are isolated", "statement": "Without domain matcher, links added in one domain never affect HasLink/GetRoles in another domain; within a domain HasLink is bounded reachability over the links of that domain only.", "quantifier": "every history of domain links with any nesting of sub-domains, every query", "why_tests_cant": "Non-interference over all histories and domain paths.", "anchors": ["rbac/domain_manager.go:AddLink,DeleteLink,HasLink,getRoleManager"]}
{"id": "C34", "title": "Domain names are arbitrary strings", "statement": "No domain name is special: a link in a domain called RoleManager or redundant_role behaves like a link in any other domain.", "quantifier": "every domain name", "why_tests_cant": "Only two reserved strings misbehave.", "anchors": ["rbac/domain_manager.go:getDomain,defaultDomain", "rbac/role_manager.go:REDUNDANT_ROLE"]}
{"id": "C35", "title": "Domain patterns apply to every matching domain", "statement": "With a domain matcher, a link added in a pattern domain is effective in every matching domain, whether that domain was used before or after the link was added.", "quantifier": "every add-only history of links, every domain, every order", "why_tests_cant": "Order independence over all permutations of histories.", "anchors": ["rbac/domain_manager.go:AddLink,rangeMatchingRMs,rangeMatchingPatterns,getRoleManager"]}
{"id": "C36", "title": "Explicit domain links survive pattern links", "statement": "Adding or deleting a link in a pattern domain never removes, hides or blocks an explicit link of a matching domain.", "quantifier": "every history of links with a domain matcher", "why_tests_cant": "Needs the same link both explicitly and through a pattern.", "anchors": ["rbac/role_manager.go:AddLink,DeleteLink (redundant)", "rbac/domain_manager.go:AddLink,DeleteLink"]}
{"id": "C37", "title": "Installing matchers preserves links", "statement": "SetMatcher/SetDomainMatcher keep every link: HasLink answers that do not depend on the new matcher are unchanged.", "quantifier": "every state, every matcher", "why_tests_cant": "Rebuild must preserve an arbitrary link set.", "anchors": ["rbac/domain_manager.go:SetMatcher,SetDomainMatcher,rebuild", "rbac/role_manager.go:SetMatcher,rebuild"]}
{"id": "C38", "title": "Domain queries are read-only and cannot crash", "statement": "HasLink/GetRoles/GetUsers on a domain manager never panic and leave every later answer unchanged.", "quantifier": "every state, every queried domain (also one that looks like a pattern)", "why_tests_cant": "Needs a particular query followed by a particular later call.", "anchors": ["rbac/domain_manager.go:getRoleManager (store=false), rangeMatchingPatterns"]}
{"id": "C39", "title": "Flush delivers every change in order", "statement": "With an adapter that does not fail, Flush hands all queued changes to the adapter in order and exactly once - as single calls for a simple adapter, as maximal runs of equal operations for a batch adapter - and leaves the queue empty.", "quantifier": "every queue content, both adapter kinds", "why_tests_cant": "Unbounded queues; grouping must be proved for all alternations.", "anchors": ["storage/controller.go:flush,batchFlush,Flush"]}
{"id": "C40", "title": "Storage follows the model", "statement": "With storage enabled, after Flush (or after every call with autosave) the adapter holds exactly the model's rules, if it did so initially.", "quantifier": "every history of rule changes, flushes and autosave switches; adapters that do not fail", "why_tests_cant": "Consistency of two stores over arbitrary histories.", "anchors": ["storage/controller.go", "enforcer.go:AddRule,RemoveRule,AddRules,RemoveRules,Flush"]}
{"id": "C41", "title": "Failed Flush loses nothing", "statement": "If the adapter reports an error, the changes it has not accepted stay queued for the next Flush.", "quantifier": "every queue and every failing call position", "why_tests_cant": "Crash-point style quantification over the failing call.", "anchors": ["storage/controller.go:flush,batchFlush"]}
{"id": "C42", "title": "AddWait delays autosave by exactly n changes", "statement": "With autosave on, after AddWait(n) the next n-1 changes are only queued and the n-th change flushes all of them.", "quantifier": "every n >= 1 and every sequence of changes", "why_tests_cant": "Arithmetic claim for all n.", "anchors": ["storage/controller.go:addOp,AddWait"]}
{"id": "C43", "title": "Loading is not written back", "statement": "LoadPolicy adds the adapter's rules to the model without queueing or sending any change to the adapter, and leaves the storage switch as it was.", "quantifier": "every model state, every adapter content, also when loading fails", "why_tests_cant": "Absence of an effect for all inputs and failure points.", "anchors": ["enforcer.go:LoadPolicy", "storage/controller.go:Enable,Disable"]}
{"id": "C44", "title": "Replacing the adapter", "statement": "SetAdapter keeps the autosave setting, stops delivering changes to the old adapter and starts delivering to the new one.", "quantifier": "every enforcer state and subsequent history", "why_tests_cant": "Absence of later effects on the old adapter for every history.", "anchors": ["enforcer.go:SetAdapter", "storage/controller.go:NewStorageController,Disable"]}
{"id": "C45", "title": "A file path is a usable adapter", "statement": "An enforcer created with a policy file path uses that file as its adapter: SavePolicy and Flush write to it.", "quantifier": "every model and rule file", "why_tests_cant": "Holds or fails for all files alike, but only the constructor's path form shows it.", "anchors": ["enforcer.go:NewEnforcer (lines 98-112)"]}
{"id": "C46", "title": "File save/load round-trip", "statement": "Rules saved by the file adapter and loaded again are the same rules in the same order.", "quantifier": "every list of rules", "why_tests_cant": "Depends on every character of every value.", "anchors": ["storage/adapter/fileadapter.go:SavePolicy,LoadPolicy,LoadPolicyLine"]}
{"id": "C47", "title": "File adapter edits are set operations", "statement": "AddRule/RemoveRule/AddRules/RemoveRules on the file adapter change the stored rule set by exactly these rules.", "quantifier": "every stored rule set and every rule (with plain values)", "why_tests_cant": "Composition of load, edit and save for all contents.", "anchors": ["storage/adapter/fileadapter.go:AddRule,RemoveRule,AddRules,RemoveRules"]}
{"id": "C48", "title": "Saving is crash-atomic", "statement": "If the process dies at any point during SavePolicy the file holds either the old rules or the new rules.", "quantifier": "every crash point, every old and new content", "why_tests_cant": "Crash points cannot be enumerated by unit tests.", "anchors": ["storage/adapter/fileadapter.go:getWriter,SavePolicy"]}
{"id": "C49", "title": "Batch calls restore autosave and flush once", "statement": "AddRules/RemoveRules leave the autosave switch unchanged, stop at the first failing rule, keep the rules before it, and with autosave on deliver everything in one flush at the end.", "quantifier": "every rule list, failing position and enforcer state", "why_tests_cant": "All failing positions and lists.", "anchors": ["enforcer.go:AddRules,RemoveRules"]}
{"id": "C50", "title": "Concurrent cache reads are safe", "statement": "Concurrent Get calls on the synchronised cache leave its list and map consistent.", "quantifier": "every interleaving of two or more Gets", "why_tests_cant": "Scheduling is not controllable in a unit test.", "anchors": ["util/cache.go:SyncLRUCache.Get (RLock around a mutating Get)"]}
{"id": "C51", "title": "Concurrent Enforce calls are independent", "statement": "Each of several concurrent Enforce calls decides on its own request, also when the matcher uses eval().", "quantifier": "every interleaving of Enforce calls", "why_tests_cant": "Scheduling is not controllable in a unit test.", "anchors": ["model/matcher/matcher.go:RangeMatches,generateEvalFunction", "model/fm/function.go:SetFunction"]}
{"id": "C52", "title": "Path matching", "statement": "PathMatch(path, pattern) holds exactly when the path's segments can be matched by the pattern's: literal segments equal, :name one arbitrary segment, * one or more segments.", "quantifier": "every path and pattern string", "why_tests_cant": "Recursive backtracking over unbounded inputs.", "anchors": ["util/builtin_operators.go:PathMatchHelper,nextSegment,isDynamicSegment,PathMatch,PathMatch2"]}
{"id": "C53", "title": "Patterns are recognised consistently", "statement": "If IsPathPattern(s) is false then s matches only itself; a prefix matcher never matches a string without its prefix.", "quantifier": "every path and every pattern string", "why_tests_cant": "Agreement of two separately written string functions on all inputs.", "anchors": ["util/builtin_operators.go:IsPathPatternHelper,PathMatchHelper,PrefixMatcher"]}
{"id": "C54", "title": "Model text round-trip", "statement": "Printing a definition and parsing it again gives the same definition; Model.String lists every definition under its section in key order; the configuration it prints, loaded into a new model, gives the same definitions and prints the same text.", "quantifier": "every definition text and every set of definitions", "why_tests_cant": "All argument lists and all key sets.", "anchors": ["model/defs/defs.go:String,NewPolicyDef,NewRequestDef,NewRoleDef,NewEffectDef", "model/model.go:String"]}
{"id": "C55", "title": "Distinct projection", "statement": "GetDistinct(columns) returns exactly the distinct projections of the current rules to these columns, each once.", "quantifier": "every rule set and column list", "why_tests_cant": "All rule sets, all enumeration orders.", "anchors": ["model/policy/policy_api.go:GetDistinct"]}
{"id": "C56", "title": "Redefining and removing sections", "statement": "SetDef/RemoveDef change exactly the named definition; after a section is (re)defined or removed, the configured matchers use the current section.", "quantifier": "every model state and key", "why_tests_cant": "Stale references appear only for particular call orders.", "anchors": ["model/model.go:SetDef,RemoveDef,BuildMatchers", "model/handlers.go"]}
{"id": "C57", "title": "Unknown names are reported as errors", "statement": "Passing the name of an unknown request definition or asking for an unknown role manager reports not-found and does not panic.", "quantifier": "every model state and every name", "why_tests_cant": "All names, all states.", "anchors": ["model/model.go:GetRequestDef,GetRoleManager", "context.go:SetRequestDef"]}
{"id": "C58", "title": "Stored rules do not alias the caller's slice", "statement": "Overwriting the slice passed to AddRule after the call does not change the stored rule, queued storage operations or later decisions.", "quantifier": "every rule, every later overwrite", "why_tests_cant": "Aliasing only shows when the caller reuses its buffer.", "anchors": ["model/model.go:AddRule", "model/policy/policy.go:AddRule", "storage/controller.go:addOp"]}
{"id": "C59", "title": "End-to-end RBAC decision", "statement": "With the RBAC model of the documentation (m = g(r.sub, p.sub) && r.obj == p.obj && r.act == p.act, allow-override), after any history of AddRule calls Enforce(sub, obj, act) allows exactly when some rule (role, obj, act) exists such that sub is role or reaches it through at most nine grouping links.", "quantifier": "every history of added policy and grouping rules, every request of non-empty strings", "why_tests_cant": "Composition of compilation, indexing, role search and effect over unbounded histories.", "anchors": ["enforcer.go:Enforce", "model/model.go", "rbac/role_manager.go", "model/matcher/matcher.go", "examples/rbac_model.conf"]}
{"id": "C60", "title": "Replacing the adapter keeps pending changes", "statement": "Changes that are queued when SetAdapter is called are not lost: they are delivered to the old adapter or stay queued.", "quantifier": "every enforcer state with pending changes", "why_tests_cant": "All queue contents.", "anchors": ["enforcer.go:SetAdapter", "storage/controller.go:NewStorageController"]}
{"id": "C61", "title": "Storage follows a replaced model", "statement": "After SetModel, with storage enabled, changes of the new model are queued and delivered like those of the old one.", "quantifier": "every enforcer state, model and later history", "why_tests_cant": "Needs all later histories.", "anchors": ["enforcer.go:SetModel", "storage/controller.go:Enable"]}
{"id": "C62", "title": "A storage failure with autosave is reported as an error", "statement": "With autosave on, an AddRule or RemoveRule whose change the adapter refuses returns that error and does not panic; with an adapter that does not fail no storage call panics.", "quantifier": "every enforcer state, call and adapter answer", "why_tests_cant": "All failing calls in all states.", "anchors": ["storage/controller.go:addOp", "enforcer.go:AddRule,RemoveRule,AddRules,RemoveRules"]}
{"id": "C63", "title": "A dotted key splits at its first dot", "statement": "SplitKey(key) returns the text before the first dot and the whole text after it; a key without a dot is returned unchanged with an empty second part.", "quantifier": "every string", "why_tests_cant": "All strings.", "anchors": ["model/defs/util.go:SplitKey"]}
{"id": "C64", "title": "Queries have no side effects", "statement": "Enforce, Filter and RangeMatches, with or without an ad-hoc matcher, leave all stored rules, definitions and the outcome of every later call unchanged.", "quantifier": "every history, every query and every later history of calls", "why_tests_cant": "All later histories.", "anchors": ["enforcer.go:Enforce,Filter,RangeMatches", "context.go:SetMatcher", "model/model.go:BuildMatcherFromDef", "model/matcher/matcher.go:NewMatcher"]}
{"id": "C65", "title": "Queries report problems as errors", "statement": "Enforce and Filter return an error, and never panic, when a matcher, request definition, effect or policy section they need is missing or unusable.", "quantifier": "every history and every combination of options", "why_tests_cant": "All model states and option lists.", "anchors": ["enforcer.go:Enforce,Filter,enforce", "context.go:NewContext", "model/model.go:GetRequestDef,RangeMatches"]}
{"id": "C66", "title": "A role function answers from the current rules of its section", "statement": "In a matcher, g(a, b) is true exactly when a is b or the grouping rules present in section g link a to b in at most nine steps; g(a, b, domains) follows the rules of that domain path within its bound.", "quantifier": "every history of rules and definitions, all names, all map orders", "why_tests_cant": "Unbounded link graphs and histories, including redefinition of the section.", "anchors": ["rbac/role_manager_api.go:GenerateGFunction", "model/model.go:SetDef,GetRoleManager", "model/handlers.go"]}
{"id": "C67", "title": "Calls on a model do not panic", "statement": "Whatever sequence of SetDef, RemoveDef, AddRule, RemoveRule, clear, build and function calls a program makes on a model, no call panics; unusable arguments are answered with an error.", "quantifier": "every history of calls on a new model, all map orders", "why_tests_cant": "All histories; a panic may need a particular earlier call.", "anchors": ["model/model.go", "model/matcher/matcher.go:NewMatcher,addRule,removeRule", "model/handlers.go"]}
{"id": "C68", "title": "Loading a model text is setting its definitions", "statement": "Loading a model text sets the definitions of its known sections in the order of the text (a later definition of the same key wins, sections of another name are ignored) and builds the matchers; a key that does not begin with its section's letter is reported as an error and nothing after it is set; other definitions of the model stay as they were.", "quantifier": "every configuration (any sections, keys, values), every history of the model before the load", "why_tests_cant": "All configurations and prior states.", "anchors": ["model/model.go:LoadModel,LoadModelFromText,loadModelFromConfig,getSecKeyByName,SetDef,BuildMatchers"]}
{"id": "C69", "title": "Domain listings are exact", "statement": "GetAllDomains lists exactly the domains that hold a link, each once; GetDomains(name) lists exactly the domains in which the name has a role or a user, each once, and changes no later answer.", "quantifier": "every history of link changes and queries, all names and map orders", "why_tests_cant": "Unbounded link histories and nested domains.", "anchors": ["rbac/domain_manager.go:GetDomains,GetAllDomains,getAllDomainsHelper,resolveRoleManager,Range"]}
{"id": "C70", "title": "Built-in functions report problems as errors", "statement": "pathMatch, pathMatch2, regexMatch, ipMatch and globMatch called in a matcher with anything but two strings, or with a pattern or address they cannot read, return an error and never panic.", "quantifier": "every list of arguments of any number and type", "why_tests_cant": "All argument lists and all pattern texts.", "anchors": ["util/builtin_operators.go:ValidateVariadicArgs,WrapMatchingFunc,RegexMatchFunc,IPMatchFunc,GlobMatchFunc,PathMatchFunc"]}
{"id": "C71", "title": "ipMatch is equality of addresses and membership in networks", "statement": "ipMatch(a, n/len) is true exactly when the first len bits of a and n agree, ipMatch(a, b) exactly when a and b are the same address; the IPv4 texts are exactly the four-part decimal texts without leading zeros and with parts up to 255.", "quantifier": "all addresses, all networks, all prefix lengths", "why_tests_cant": "2^32 addresses times 33 * 2^32 networks, and IPv6.", "anchors": ["util/builtin_operators.go:IPMatch"]}
{"id": "C72", "title": "A new model knows the built-in and the registered functions", "statement": "A new model's matchers can call exactly the built-in functions and the functions registered for the process; a registered function replaces a built-in one of its name and the last registration of a name counts.", "quantifier": "every list of registrations, all map orders", "why_tests_cant": "All registration sequences and map orders.", "anchors": ["model/fm/function.go:DefaultFunctionMap", "model/fm/global.go:SetFunction"]}
{"id": "C73", "title": "A query with its own matcher text searches the rules as they are now", "statement": "Filter called with a matcher text instead of a matcher name reports exactly the present rules of the section the text names that satisfy it (when there are none: at most the blank rule), each once per way of satisfying it, in policy sections and grouping sections alike; Enforce with such a text and allow-override allows exactly when a present rule with effect allow satisfies it. Ranges over texts with at most two alternatives at each point, comma-free rules and conditions that can be evaluated.", "quantifier": "every history of the model, every matcher text, every request, all map orders", "why_tests_cant": "All texts against all rule histories.", "anchors": ["enforcer.go:Filter,Enforce,splitParams", "context.go:SetMatcher,NewContext", "model/model.go:BuildMatcherFromDef", "model/matcher/matcher.go:NewMatcher"]}
{"id": "C74", "title": "A configured matcher over a grouping section follows the section", "statement": "A matcher that is built over a grouping section reports, at every later time, exactly the rules then present in the section that satisfy it: rules added, removed or cleared after the build count at once.", "quantifier": "every history of the model before and after the build, every request, all map orders", "why_tests_cant": "All histories of role changes around the build.", "anchors": ["model/model.go:BuildMatcher,BuildMatcherFromDef", "rbac/role_policy.go:AddRule,RemoveRule,Clear", "model/matcher/matcher.go:NewMatcher,RangeMatches", "enforcer.go:Filter"]}
{"id": "C75", "title": "An application decides by the boolean meaning of its matcher", "statement": "For a model with one request, policy, effect and matcher definition and at most one grouping section, whose matcher text reads as a boolean formula over conditions: loading, building and changing rules never panics; Filter reports exactly the present rules for which the formula is true, and Enforce answers by the effects of those rules under allow-override, deny-override and allow-and-no-deny. Ranges over formulas the index can hold (C08, C09), comma-free rules with a value for every column, and requests whose conditions can be evaluated and whose last conditions fail for empty values.", "quantifier": "every such configuration and formula, every rule history before and after the build, every request, all map orders", "why_tests_cant": "All formulas against all histories and requests.", "anchors": ["enforcer.go:Enforce,Filter", "model/model.go:SetDef,AddRule,RemoveRule,BuildMatchers,RangeMatches", "model/defs/matcher_def.go:Build", "model/matcher/matcher.go:RangeMatches", "model/effector/default_effector.go:MergeEffects"]}
{"id": "C76", "title": "An access control list allows exactly the listed requests", "statement": "With any number of distinct columns, the same in requests and rules and compared one by one, and allow-override: a request whose last value is not empty is allowed exactly when the rule with those values is present, and Filter reports that rule only.", "quantifier": "every number of columns, every rule history, every request of strings, all map orders", "why_tests_cant": "Any number of columns, all histories and all requests.", "anchors": ["examples/basic_model.conf", "examples/basic_without_users_model.conf", "examples/basic_without_resources_model.conf", "enforcer.go:Enforce,Filter"]}
{"id": "C77", "title": "RBAC with domains grants by roles of the request's domain", "statement": "With rbac_with_domains_model.conf a request (sub, dom, obj, act) with a non-empty action and a domain that is not a reserved name is allowed exactly when a rule (role, dom, obj, act) is present and the subject is that role or reaches it over one to seven grouping rules of that domain; links of other domains never count.", "quantifier": "every history of policy and grouping rules, every request, all map orders", "why_tests_cant": "All role graphs in all domains, all histories.", "anchors": ["examples/rbac_with_domains_model.conf", "rbac/domain_manager.go:HasLink", "enforcer.go:Enforce,Filter"]}
{"id": "C78", "title": "RBAC with denials: a denial wins", "statement": "With rbac_with_deny_model.conf and rules that say allow or deny, a request with a non-empty action is allowed exactly when some role of the subject (itself, or over one to nine grouping rules) is allowed and none is denied, whatever the order in which rules came.", "quantifier": "every history of policy and grouping rules, every request, all map orders", "why_tests_cant": "All role graphs, all mixtures of allow and deny, all orders.", "anchors": ["examples/rbac_with_deny_model.conf", "model/effector/default_effector.go:MergeEffects", "enforcer.go:Enforce"]}
{"id": "C79", "title": "A policy file follows the enforcer that writes it", "statement": "With the file adapter and storage enabled, after any sequence of rule changes, batches, flushes, saves and autosave switches the policy file holds, up to the changes still queued, exactly the rules the model lists; with autosave on and no wait it holds exactly those after every call, and no call fails.", "quantifier": "every history of calls, every rule text, every initial file, all map orders", "why_tests_cant": "All histories of edits with all texts, through model, queue and file format.", "anchors": ["enforcer.go:AddRule,RemoveRule,AddRules,RemoveRules,Flush,SavePolicy", "storage/controller.go:addOp,Flush,batchFlush", "storage/adapter/fileadapter.go:AddRules,RemoveRules,SavePolicy,LoadPolicy"]}
{"id": "C80", "title": "An enforcer started from the policy file has the rules it was saved with", "statement": "A new enforcer with a rule-free model of the same sections that loads the policy file another enforcer has kept reports no error and then lists exactly the rules the first enforcer listed; loading leaves the file unchanged.", "quantifier": "every history of the first enforcer, every model with the sections, all map orders", "why_tests_cant": "All histories before the restart.", "anchors": ["enforcer.go:NewEnforcer,LoadPolicy", "storage/adapter/fileadapter.go:LoadPolicy", "model/model.go:AddRule"]}
{"id": "C81", "title": "A restart from the policy file changes no decision", "statement": "A process that keeps its rules in a policy file with autosave ends after any calls; a second process with the same model file loads the policy file without an error and answers every request as the first did at its end.", "quantifier": "every configuration of the kinds of C76 - C78, every history of the first process, every request, all map orders in both processes", "why_tests_cant": "All histories before the restart and all requests after it, through model, storage, file format and matcher.", "anchors": ["enforcer.go:NewEnforcer,AddRule,RemoveRule,AddRules,RemoveRules,LoadPolicy,Enforce", "storage/controller.go:addOp,Flush", "storage/adapter/fileadapter.go:AddRules,RemoveRules,LoadPolicy", "model/model.go:AddRule"]}
{"id": "C82", "title": "SetPolicy hands over a policy with its rules", "statement": "After SetPolicy(key, policy) on a policy section the model lists exactly the rules of that policy and of the calls made on the section since, each once; other sections keep their rules; what happens next is as if the section had been redefined with the same text and filled with the same calls. Decisions follow the new policy.", "quantifier": "every history of calls with any number of policies handed over, every policy, all map orders", "why_tests_cant": "All histories before and after each hand-over.", "anchors": ["model/model.go:SetPolicy,GetPolicy,AddRule,RemoveRule,ClearPolicy,RangeRules,BuildMatcherFromDef", "model/policy/policy.go:NewPolicy,AddRule,RemoveRule,Clear"]}
{"id": "C83", "title": "Rules with a condition decide by their conditions", "statement": "In a model whose rules carry a condition on the request (eval(p.sub_rule) && r.obj == p.obj && r.act == p.act) and whose conditions speak of the request only, a request is allowed exactly when some present rule for its object and action has a condition that is true for it; Filter returns exactly those rules.", "quantifier": "every history of policy rules around the build that leaves at least one rule, every condition text and evaluator that reads them, every subject value, object and non-empty action, all map orders", "why_tests_cant": "Conditions are arbitrary expressions; all histories and all conditions.", "anchors": ["model/matcher/matcher.go:RangeMatches,rangeMatchesHelper,eval,generateEvalFunction", "model/model.go:RangeMatches", "enforcer.go:Enforce,Filter"]}
{"id": "C84", "title": "A super user is never locked out and no one else gains", "statement": "In an access control list with a second alternative about the request alone (|| r.sub == \"root\"), a request is allowed exactly when that condition holds for it or the rule with its values is present, whatever rules were added and removed before, also with no rule at all.", "quantifier": "every history of policy rules around the build, every number of distinct columns, every condition about the request, all map orders, all requests of strings with a non-empty last value", "why_tests_cant": "All histories, including those that remove every rule.", "anchors": ["model/matcher/matcher.go:RangeMatches,addRule,removeRule", "model/defs/matcher_def.go:buildExprTree", "enforcer.go:Enforce"]}
{"id": "C85", "title": "Calls on a role manager may run at the same time", "statement": "AddLink, DeleteLink, HasLink, GetRoles and GetUsers calls that run at the same time do not panic and can always be run to their end; afterwards exactly the added links are there, without the deleted ones; HasLink answers true if the names are connected by links that are there throughout, and only if they are connected by links that are there at some time; of the calls that add or delete one link, one reports it.", "quantifier": "every history of phases of concurrent calls, every interleaving at every map operation, every order and timing of Range, every hierarchy level", "why_tests_cant": "The interleavings of a handful of calls are already too many to run, and the race detector only sees the schedules that happen.", "anchors": ["rbac/role_manager.go:AddLink,DeleteLink,HasLink,hasLinkHelper,getRole,removeRole,GetRoles,GetUsers", "rbac/role.go:addRole,removeRole,rangeRoles,rangeUsers,removeMatches"]}
{"id": "C86", "title": "Concurrent role queries do not disturb one another", "statement": "HasLink, GetRoles and GetUsers calls that run at the same time answer exactly as if each had run alone, also about names the role manager does not know, and leave the links as they are.", "quantifier": "every history of links, every set of concurrent queries, every interleaving at every map operation, every order and timing of Range", "why_tests_cant": "Queries look read-only but create and remove roles; only some interleavings show it.", "anchors": ["rbac/role_manager.go:HasLink,GetRoles,GetUsers,getRole,removeRole,rangeMatchingPatterns", "rbac/role.go:rangeRoles,rangeUsers,removeMatches"]}
{"id": "C87", "title": "Every matcher of a model decides by its own text and section", "statement": "In a model with any number of request, policy, grouping, effect and matcher definitions, a call that selects a matcher (by name or by default) is decided by the text of that matcher, over the rules of the policy section that text names, with the request definition and the effect the call selects: Filter reports exactly the present rules of that section for which the text is true, and Enforce decides by those rules and the effect. The other definitions and rules of other policy sections play no part.", "quantifier": "every well-formed list of definitions, every history of rules around the build, every matcher of the file, all map orders, all options and requests", "why_tests_cant": "Interference of sections shows only for particular combinations of definitions, histories and options.", "anchors": ["model/model.go:SetDef,BuildMatchers,BuildMatcher,BuildMatcherFromDef,AddRule,RemoveRule", "model/defs/matcher_def.go:GetPolicyKey", "enforcer.go:Enforce,Filter", "context.go:NewContext,SetMatcher,SetRequestDef,SetEffector"]}
{"id": "C88", "title": "A matcher that compares columns allows exactly the requests covered by a rule", "statement": "A matcher that compares every column of the request with the column of the same name of the rules, by == or by a two-place role function (r.sub with g, r.obj with g2, ...), allows a request of one string per column, the last of which is not equal (or linked) to the empty string, exactly when a present rule covers it: equal values, or values connected by at most nine links of the grouping section. For deny rules it denies exactly those; with allow and deny rules an allowing rule has to cover it and no denying rule may.", "quantifier": "every number of columns, every choice of comparison per column, any number of grouping sections, every list of definitions around it, every history, all map orders, all requests of strings", "why_tests_cant": "All numbers of columns and role hierarchies, all histories.", "anchors": ["examples/rbac_with_resource_roles_model.conf", "examples/rbac_model.conf", "examples/basic_model.conf", "examples/multiple_policy_definitions_model.conf", "enforcer.go:Enforce,Filter", "rbac/role_manager_api.go:GenerateGFunction"]}
{"id": "C89", "title": "Filtering by constants reports exactly the matching rules", "statement": "Filter with a text of conditions on columns of one section against constants (p.dom == \"domain1\", g(\"alice\", p.sub) && p.act == \"read\", g.user == \"alice\", as in the README) reports exactly the present rules of that section, policy or grouping, that meet all the conditions, in whatever model it is used.", "quantifier": "every list of definitions, every history, every number of conditions, all constants, all map orders", "why_tests_cant": "All histories and constants.", "anchors": ["README.md", "enforcer.go:Filter", "context.go:SetMatcher", "model/model.go:BuildMatcherFromDef,RangeMatches", "model/matcher/matcher.go:RangeMatches"]}
{"id": "C90", "title": "Adding a rule never revokes and removing one never grants", "statement": "For a matcher that compares columns (as in C88) and two histories with the same model file: the decisions depend on the rules present only, not on the order in which they came, on rules that came and went, or on when the matchers were built; if every rule present after the first is present after the second, everything allowed after the first is allowed after the second under allow-override (and denied after the first is denied after the second under deny-override). In particular AddRule never revokes and RemoveRule never grants under allow-override, for policy and grouping rules alike.", "quantifier": "every list of definitions, all pairs of histories, every number of columns and grouping sections, all map orders (different ones for the two calls), all requests as in C88", "why_tests_cant": "Compares all pairs of histories.", "anchors": ["model/matcher/matcher.go:addRule,removeRule,RangeMatches", "rbac/role_manager.go:AddLink,DeleteLink,HasLink", "model/model.go:AddRule,RemoveRule", "enforcer.go:Enforce,Filter"]}
{"id": "C91", "title": "Every policy file is loaded or reported", "statement": "Loading a policy file, by LoadPolicy or by NewEnforcer with its path, never panics whatever the file contains: the rules before the first line the model has no section for are added, in order, and that line is reported as an error; if there is no such line the error of reading the file is returned, if any. Loading leaves the file, the storage switch and the changes waiting to be saved as they were.", "quantifier": "every text of the file, a missing file, every history of the model, all map orders", "why_tests_cant": "All texts of the file and all histories before; a panic may need one particular line.", "anchors": ["enforcer.go:NewEnforcer,LoadPolicy", "storage/adapter/fileadapter.go:LoadPolicy,LoadPolicyLine", "model/model.go:AddRule"]}
{"id": "C92", "title": "A matcher means what its logic says", "statement": "For a model file whose matcher is built with and, or and parentheses from comparisons (== and !=) of request values, rule values and literals and from calls of role functions (with or without domains) and of the functions every model has (pathMatch, ipMatch, regexMatch, ...): Filter reports exactly the present rules for which that formula is true, where a role function is true if a chain of present grouping rules leads from its first to its second argument in the given domain; Enforce answers by the effects of these rules. In particular, once a rule is removed what it alone allowed is refused, and a model without rules refuses.", "quantifier": "every such file, every formula, every history of rules around the build of the matchers, all map orders, all requests of strings", "why_tests_cant": "Formulas, rules, histories and requests are unbounded, and the index built for a matcher depends on the history.", "anchors": ["enforcer.go:Enforce,Filter", "model/model.go:RangeMatches,BuildMatchers", "model/matcher/matcher.go:RangeMatches,addRule,removeRule", "model/fm/function.go:DefaultFunctionMap", "util/builtin_operators.go:PathMatch,IPMatch,RegexMatch", "examples/pathmatch_model.conf", "examples/ipmatch_model.conf", "examples/rbac_with_domains_model.conf"]}
{"id": "C93", "title": "Calls in domains that run at the same time keep to their domain", "statement": "Calls on a domain manager (AddLink, DeleteLink, HasLink, GetRoles, GetUsers with any domains) may run at the same time. None of them panics and all of them can return. Each answers by the links of its own domain: HasLink is true if the inheritance holds there throughout and only if it holds with what the calls running in that domain add; AddLink and DeleteLink answer as if alone when no other call updates the same link; an AddLink that answered true is seen by every later call until the link is deleted. Calls in other domains, whether these are new or not, make no difference. Queries alone answer exactly.", "quantifier": "every level, every number of calls in every number of phases, all domains and names, every interleaving of the steps of the calls and every order of map iteration", "why_tests_cant": "There is no bound on the interleavings of the map operations of several calls; a lost link shows only under one of them.", "anchors": ["rbac/domain_manager.go:getRoleManager,AddLink,DeleteLink,HasLink,GetRoles,GetUsers", "rbac/role_manager.go:AddLink,DeleteLink,HasLink,GetRoles,GetUsers"]}
{"id": "C94", "title": "A matcher about the request alone decides on the request alone", "statement": "For a model whose matcher names no column of a rule (as in abac_model.conf, where only the owner of an object may use it): Enforce answers the formula for the request, with values of any type, whatever rules were added, removed or cleared and also while there are none; with the effect that lets deny rules win, a request for which the formula is true is refused exactly when a deny rule is present. Filter reports every present rule when the formula is true and nothing when it is not.", "quantifier": "every configuration with one policy section and a matcher without rule columns, every history of rules around the build, all map orders, all requests", "why_tests_cant": "Histories and requests are unbounded; with no column named, the index files rules under keys of their own and falls back on a rule that was never added.", "anchors": ["enforcer.go:Enforce,Filter", "model/matcher/matcher.go:RangeMatches,rangeMatches,addRule,removeRule", "model/effector/default_effector.go:MergeEffects", "model/defs/defs.go:GetEft", "examples/abac_model.conf", "examples/abac_not_using_policy_model.conf"]}
{"id": "C95", "title": "A user-written effector decides in the order it is asked", "statement": "With an effector written by the user (SetEffector as a context option or on the model), Enforce asks it about the first rule found, then the first two, and so on, with their effects. Its first answer other than indeterminate decides: allowed exactly when it is allow without an error. If there is none, an error of the search is reported and denies, and otherwise the effector is asked once about all rules found, marked as complete, and the request is allowed exactly when it answers allow. An effector that waits for all rules therefore decides on exactly the rules Filter reports, and the library's own effectors are special cases.", "quantifier": "every effector with any state, every history of the model, every query through a matcher in service, all map orders", "why_tests_cant": "Effectors, their states and the sequences of rules are unbounded.", "anchors": ["enforcer.go:enforce,EnforceWithContext", "context.go:SetEffector,NewContext", "model/effector/effector.go:IEffector", "model/effector/default_effector.go:MergeEffects", "model/model.go:SetEffector,GetEffector,RangeMatches"]}
{"id": "C96", "title": "A query with its own matcher is answered by the logic of that matcher", "statement": "Filter and Enforce called with a matcher of their own (SetMatcher with a text), built with and, or and parentheses from comparisons of request values, rule values and literals and from calls of role functions (with or without domains) and built-in functions: Filter reports exactly the rules of the section that are present at the time of the call and for which the formula is true, whatever was added and removed before. If the section has no rule, it reports the rule of empty values exactly when the formula is true of it. While the section has a rule, Enforce answers by the effects of exactly these rules.", "quantifier": "every well-formed file, every history of rules around the build, every formula over a policy section, every request of strings, all map orders", "why_tests_cant": "Formulas, role graphs, histories and rule sets are unbounded.", "anchors": ["context.go:SetMatcher", "enforcer.go:Filter,Enforce,RangeMatches,splitParams", "model/matcher/matcher.go:NewMatcher,RangeMatches", "model/model.go:BuildMatcherFromDef,RangeMatches", "README.md:Advanced Policy Filtering"]}
{"id": "C97", "title": "Patterns as users, whenever the matcher is set", "statement": "After any calls on a role manager, among them any number of SetMatcher calls at any time, an ordinary name has a role exactly when a chain of at most level - 1 steps leads to it, where a name steps along its own links and along the links of every pattern that stands for it. GetRoles lists exactly the names one step away and GetUsers the ordinary names one step before. Patterns may overlap and stand for one another. The order of the calls, earlier matchers and the map orders do not matter. Roles on the right of links are ordinary names; no name holds a dollar sign.", "quantifier": "every level, every history of AddLink, DeleteLink, Clear, queries and SetMatcher, every matcher, all names, all map orders", "why_tests_cant": "Histories, link graphs and matchers are unbounded; the links are rebuilt by every SetMatcher in map order.", "anchors": ["rbac/role_manager.go:SetMatcher,rebuild,getRole,HasLink,GetRoles,GetUsers", "rbac/role.go:rangeRoles,rangeUsers", "examples/rbac_with_pattern_policy.csv"]}
{"id": "C98", "title": "Role managers of a model used directly", "statement": "After a model file is loaded and used, its role managers may also be fetched with GetRoleManager and used directly: links added, deleted and cleared past the model, and, on sections with two places, matchers set and changed at any time, in any order with rules going through the model. From then on Filter reports exactly the present rules for which the logical formula of the matcher is true, and Enforce answers by the effects of those rules, where a call of a grouping section means: joined, in at most nine steps, by the links the section has now and the patterns that stand for names under the matcher set last, whichever way the links came.", "quantifier": "every well formed model file whose matcher is a formula over comparisons and calls, every history of rules, every history of direct calls mixed with rules, every matcher object, every request of as many values as the request definition has columns, all map orders", "why_tests_cant": "Files, formulas, histories, links and matchers are unbounded; the manager is shared between the rules, the function the matcher calls and the caller.", "anchors": ["model/model.go:GetRoleManager", "rbac/role_policy.go", "rbac/role_manager.go:SetMatcher", "rbac/role_manager_api.go:GenerateGFunction", "example_matcher_test.go"]}
{"id": "C99", "title": "A matcher with what removed rules leave behind", "statement": "After a model file is loaded, built and used, Filter reports exactly the present rules for which the logical formula of the matcher is true, and besides them at most one thing: the rule of empty values. It is reported exactly if, for some alternative of the formula (a path through its ORs), the last test is true of the empty values and the tests before it are true of a rule that was added since the section was last cleared and of which no present rule has the same values in the columns those tests name (or, if no rule was added since, are true of the empty values). Enforce takes it for a rule that allows. So while no added rule is missing, and there is one, the matcher means its formula; removing a rule can leave its user with more than the rule gave.", "quantifier": "every well formed model file whose matcher is a formula over comparisons and calls, every history, every request of as many values as the request definition has columns for which the called functions have answers, the three effects (for the combined one: no satisfied rule of indeterminate effect), all map orders", "why_tests_cant": "The rule of empty values depends on the whole history of additions, removals and clears and on the shape of the formula; tests fix one of each.", "anchors": ["model/matcher/matcher.go", "model/model.go:AddRule,RemoveRule,RangeMatches", "enforcer.go:Enforce,Filter", "examples/pathmatch_model.conf"]}
{"id": "C100", "title": "Patterns stand for names and for domains, in role managers and in matchers", "statement": "A role manager with domains can be given a matcher for names (SetMatcher) and one for domains (SetDomainMatcher), before, between and after link calls. From then on HasLink(a, b, d) answers by the links of d and of every domain pattern that covers d, where a name also follows the links of every name pattern that covers it. In a model this is what a call of the grouping function in a matcher means: Filter reports exactly the rules for which the formula is true under these readings and Enforce answers by their effects, also for rules added after the matchers were set.", "quantifier": "every call history of a role manager with domains, every name, domain and iteration order; every configuration file, every history of rule changes and of direct calls on the role managers of the model, every matcher that is a logical formula, every request", "why_tests_cant": "the tests set both matchers on one three-rule policy (model_test.go:616-644); that a pattern link reaches exactly the covered names of exactly the covered domains must hold for every policy, order of calls and request", "anchors": ["rbac/role_manager.go: RoleManager.SetMatcher, RoleManager.HasLink", "rbac/domain_manager.go: DomainManager.SetMatcher, SetDomainMatcher, AddLink, HasLink, getRoleManager", "model/model.go: GetRoleManager, BuildMatchers, RangeMatches"]}
{"id": "C101", "title": "Whatever the logic of a matcher, more rules grant more and equal rules decide equally", "statement": "For every matcher of comparisons and function calls joined by and, or and parentheses: adding a rule (of a policy or a grouping section) never takes away an access and removing one never gives one while the effect is some(where (p.eft == allow)), the other way round under !some(where (p.eft == deny)); and two histories that leave the same rules give the same listing and the same decisions, in whatever order the rules came and went.", "quantifier": "every configuration file, every two histories of rule changes over it (in particular a history and the same with one AddRule or RemoveRule more), every such matcher, request and map order", "why_tests_cant": "it compares the decisions after any two histories; a test compares the two it was written for", "anchors": ["enforcer.go: Enforce, Filter", "model/model.go: AddRule, RemoveRule, RangeMatches", "model/matcher/matcher.go: Matcher.addRule, removeRule, RangeMatches", "rbac/role_manager.go: HasLink"]}
{"id": "C102", "title": "Any number of restarts from the policy file change no decision, whatever the model file", "statement": "Processes one after the other keep their rules in one policy file with autosave: each loads the file and adds and removes rules, one by one and in batches. No call panics or returns an error, after each process the file holds exactly the rules the process ended with, and a process that loads the file lists the same rules and decides every request with every matcher as the process before did at its end, and as one process would that had made all the calls - as if there had been no restart.", "quantifier": "every configuration file, every file of rules of its sections, every number of processes with every history of rule changes, every matcher of comparisons and function calls, request and map order in all processes", "why_tests_cant": "all histories before and between the restarts and all requests after them, through model, storage, file format and matcher", "anchors": ["enforcer.go:NewEnforcer,AddRule,RemoveRule,AddRules,RemoveRules,Flush,SavePolicy,LoadPolicy,Enforce", "storage/controller.go:addOp,Flush", "storage/adapter/fileadapter.go:AddRules,RemoveRules,SavePolicy,LoadPolicy", "model/model.go:AddRule,RemoveRule"]}
{"id": "C103", "title": "Functions of the user mean in matchers what they compute", "statement": "A function registered with SetFunction before the model file is loaded is like a builtin with that name (the last registration of a name counts, also over a builtin). After loading, SetFunction replaces what the name stands for at once in every matcher that calls it, a grouping section of that name included, RemoveFunction takes it away, and rules, other names and other matchers are not touched: Enforce and Filter then decide from the rules and the current functions.", "quantifier": "every list of registrations before the file, every configuration file, every history of rule changes and SetFunction/RemoveFunction calls after it, every matcher of comparisons and calls in which the functions give answers, request and map order", "why_tests_cant": "registrations, rule changes and queries interleave in any order; a cached matcher must never keep an old function", "anchors": ["model/model.go:SetFunction,RemoveFunction,BuildMatcher,RangeMatches", "enforcer.go:Enforce,Filter", "model/fm/function.go:SetFunction,RemoveFunction", "model/matcher/matcher.go:RangeMatches,rangeMatchesHelper"]}
{"id": "C104", "title": "Role managers of the user get exactly the rules of their section and decide the matchers", "statement": "After SetRoleManager with a manager of the user (any implementation of the interface, or nil) the manager gets one AddLink, DeleteLink or Clear call for each AddRule, RemoveRule and ClearPolicy of its section, in order, and nothing else; the model returns its answers and errors, lists as rules what its Range gives, and announces a rule exactly if the manager says that it changed. If the manager keeps a set of links, the rules of the section behave as a set. Matchers call its HasLink (a nil manager compares the names), in every matcher of every model file, and the rules of other sections are not touched.", "quantifier": "every implementation of the role manager interface, every configuration file, every history of model calls with any number of managers set for any sections, every matcher of comparisons and calls that get answers, request and map order", "why_tests_cant": "the managers are arbitrary code; histories and managers are unbounded", "anchors": ["model/model.go:SetRoleManager,AddRule,RemoveRule,ClearPolicy,RangeRules", "rbac/role_policy.go:AddRule,RemoveRule,Range,Clear", "rbac/role_manager_api.go:IRoleManager,GenerateGFunction"]}
{"id": "C105", "title": "Matchers of the user decide by the rules they report", "statement": "With a matcher written by the user (any implementation of the interface, passed as an option or stored in the model) Filter returns exactly the rules the matcher reports, in order and with its policy key in front, and its error. Enforce asks it to stop as soon as a reported rule settles the matter; if the matcher stops when asked, the decision is that of the policy effect over the reported rules, an error after the settling rule does not matter and any other error is returned with a denial. A matcher of the library decides as one of the user would that reports the same rules.", "quantifier": "every implementation of the matcher interface (errors, panics and reactions to being told to stop included), every history of the model, request, effect and map order", "why_tests_cant": "the matcher is arbitrary code that reacts to each answer of the callback", "anchors": ["model/matcher/matcher_api.go:IMatcher", "context.go:SetMatcher,NewContext", "model/model.go:RangeMatches,SetMatcher", "enforcer.go:Enforce,Filter,enforce,FilterWithContext"]}
{"id": "C106", "title": "An adapter is asked only for changes that change what it holds", "statement": "Once an adapter holds the rules of the enforcer, every change it is asked for adds a rule it has not or removes one it has, in single calls and within batches: an adapter that refuses anything else (a table with a unique key) never refuses, no call fails or panics, and after every history - calls that change nothing, changes that cancel and repeat, flushes, autosave switches, waits - it holds the rules of the model up to the queued changes.", "quantifier": "every adapter that takes effective changes (any error on others, single or batched), every model, every history of rule changes, flushes, waits and settled saves, every map order", "why_tests_cant": "the adapter's answers depend on the whole history of calls; a test adapter that accepts everything hides redundant calls", "anchors": ["storage/controller.go:addOp,Flush,flush,batchFlush,run,runBatch", "storage/adapter.go:Adapter,SimpleAdapter,BatchAdapter", "enforcer.go:AddRules,RemoveRules,SavePolicy,LoadPolicy,Flush", "model/model.go:AddRule,RemoveRule"]}
{"id": "C107", "title": "Restarts from storage of any kind change no decision", "statement": "A storage that keeps a set of rules - a file, a table with a unique key that refuses duplicates, a service - and any number of processes on it one after the other, each of which loads the rules and changes them by any calls, with autosave on, or with autosave off or delayed if it saves and ends only after a Flush: no call of any process panics or fails, the storage ends with exactly the rules of one process that made all the calls, and a process that loads them in the end, from this storage or from a copy of another kind, lists the same rules and gives the same decisions as that one process.", "quantifier": "every storage with states of any type that takes effective changes and loads what it holds, every number of processes and histories of calls, every model file of comparisons, functions and roles, every value (no character is excluded), every request and map order", "why_tests_cant": "the storage, the number of processes and the calls are unbounded, and one change lost or asked twice shows only after a later restart", "anchors": ["storage/controller.go:addOp,Flush,flush,batchFlush,EnableAutosave", "storage/adapter.go:Adapter,SimpleAdapter,BatchAdapter", "enforcer.go:NewEnforcer,LoadPolicy,SavePolicy,AddRules,RemoveRules,Flush,Enforce", "model/model.go:AddRule,RemoveRule,RangeRules"]}
{"id": "C108", "title": "Every storage controller passes on what it was told, also after it was replaced", "statement": "With any number of storage controllers on one model - the enforcer's, those it used before SetAdapter, further ones made with NewStorageController - each in its own mode, an adapter that belongs to one controller and does not fail has accepted, followed by what its controller still holds, exactly the changes announced while the controller was listening, in order and once. SetAdapter loses nothing: what the old controller held is delivered by its Flush. A controller that always listens keeps its storage equal to the model's rules, also across LoadPolicy and SetAdapter of the enforcer, so that two such storages hold the same rules. After a flush a controller with autosave passes the changes on with the n-th one if AddWait(n) was called, at once from then on, and without autosave holds them all.", "quantifier": "every number of controllers and adapters, every behaviour of the other adapters that does not end in a panic, every history of calls on the enforcer, the model and the controllers, every map order", "why_tests_cant": "the number of controllers and the interleavings of changes, flushes, switches, replacements and loads are unbounded", "anchors": ["storage/controller.go:NewStorageController,Enable,Disable,addOp,Flush,flush,batchFlush,EnableAutosave,DisableAutosave,AddWait", "enforcer.go:SetAdapter,SetOption,GetStorageController,LoadPolicy,SavePolicy,AddRules,RemoveRules,Flush", "model/model.go:AddRule,RemoveRule"]}
{"id": "C109", "title": "A policy written by the user is obeyed and followed", "statement": "With any implementation of IPolicy given to SetPolicy, AddRule and RemoveRule on its section return what that policy returns and the model announces the rule exactly when the answer is true; ClearPolicy returns the policy's error; nothing else changes; RangeRules lists of that section exactly what the policy's Range gives. When the policies announce every change of their rules - also those their owner makes, and those that turn one rule into several - the model is at all times in the state that a history with built-in policies only leads to, the one that makes the announced changes; so matchers built on the section report exactly according to the rules the policy lists, however those rules came about.", "quantifier": "every implementation of IPolicy (states, answers, errors, events, owner actions), every history of calls on the model with any number of SetPolicy calls and owner actions, every map order", "why_tests_cant": "the implementations are not known when the library is tested, and histories are unbounded", "anchors": ["model/policy/policy_api.go:IPolicy", "model/model.go:SetPolicy,GetPolicy,AddRule,RemoveRule,ClearPolicy,RangeRules", "model/matcher/matcher.go:NewMatcher"]}
{"id": "C110", "title": "A matcher definition lists the arguments its expression names", "statement": "When a matcher definition is built from an expression that the tokenizer accepts, its GetPolicyArgs and GetRequestArgs list every policy and every request argument that stands as a word in a condition of the expression, and nothing that is not written in a condition - whatever the nesting of && and ||, also for the expressions that are compiled wrongly (C08). The policy section the matcher will search is the section of a policy argument named in a condition: that of all of them if they agree, and p if none is named.", "quantifier": "every expression over conditions, &&, || and parentheses, every condition text, every growth policy of Go slices", "why_tests_cant": "expressions nest without bound and condition texts are arbitrary; the compiler overwrites shared arrays while it runs", "anchors": ["model/defs/matcher_def.go:Build,buildExprTree,GetPolicyArgs,GetRequestArgs,RecursivePolicyArgs,RecursiveRequestArgs,GetPolicyKey,NewMatcherStage", "model/defs/defs.go:pArgReg,rArgReg"]}
{"id": "C111", "title": "A crash leaves the storage at an earlier moment", "statement": "Let an enforcer hold the rules of its storage with no change queued, and make any rule changes - single or in batches, with autosave on or off, delayed by AddWait -, flushes, and saves while no change is queued. If the process crashes between any two calls on the adapter, also in the middle of a flush or of a batch, then the storage holds exactly the rules the model had at some moment since: changes are stored in the order in which they were made and none is skipped. With a model file, the next process loads these rules and answers every request as a process that made only the first ones of the calls. SavePolicy with changes queued breaks this: the queue is not emptied, and a crash in the next Flush can leave rules together that the model never had together.", "quantifier": "every history of such calls, every crash point, every storage that keeps a set of rules, every model file of comparisons and function calls (C92), every request", "why_tests_cant": "histories, queues and crash points are unbounded in number; a test stops at a few of them", "anchors": ["storage/controller.go:Flush,flush,batchFlush,addOp,AddWait,EnableAutosave,DisableAutosave", "enforcer.go:AddRules,RemoveRules,LoadPolicy,SavePolicy,Flush,SetOption"]}
{"id": "C112", "title": "Matching functions that panic", "statement": "A role manager's matching function may panic on some patterns - RegexMatch on a malformed expression does -, and a program may recover and go on. Which calls panic depends only on the names given so far and is described exactly; while no malformed name is given nothing panics and nothing differs. A panicking AddLink or DeleteLink adds and removes no link: the links are those of the calls that returned, and every HasLink that answers true, every role and every user listed is justified by them. After AddLink or DeleteLink with a malformed pattern - though it panicked - the pattern stays known, and the first call with any ordinary name not mentioned before panics until Clear; the same call made again returns. It can return a wrong answer: HasLink is false for a user whose link is granted by a pattern. A SetMatcher that panics midway has lost links.", "quantifier": "every matching function, every set of pairs it panics on, every history of calls on a role manager, every map iteration order, every maximal hierarchy level", "why_tests_cant": "the histories and the sets of malformed patterns are unbounded, and outcomes depend on map iteration order", "anchors": ["rbac/role_manager.go:getRole,match,AddLink,DeleteLink,HasLink,GetRoles,GetUsers,SetMatcher,rebuild", "util/builtin_operators.go:RegexMatch"]}
{"id": "C113", "title": "Storage failures a program recovers from", "statement": "With autosave on, an error of the adapter makes AddRule, RemoveRule, AddRules or RemoveRules panic, and a program may recover and go on. Whatever the adapter answers, the calls leave the model exactly as they would without any storage, also those that panic, and those that return give the model's answers. A call panics only with autosave on and with the error of its last adapter call, the only one refused. Every change announced so far is, in order, accepted, refused once and never offered again, dropped next to a refused batch (at most one), or still queued; a rule none of whose changes was lost is stored or queued exactly when the model has it, and a SavePolicy the adapter accepts repairs the rest. A panicking AddRule has changed the model: trying it again answers false and asks the adapter for nothing.", "quantifier": "every enforcer with an external adapter and storage enabled, every adapter and every failure of it, every history of calls that keep the storage set-up, every map iteration order", "why_tests_cant": "which call fails, what is queued then and what the program does afterwards are unbounded", "anchors": ["storage/controller.go:addOp,flush,batchFlush,Flush", "enforcer.go:AddRule,RemoveRule,AddRules,RemoveRules,Flush,SavePolicy", "model/model.go:AddRule,RemoveRule"]}
{"id": "C114", "title": "Panicking rule changes a program recovers from", "statement": "A matcher with three or more alternatives at one point is accepted, and rule changes then panic; a program may recover and go on. After any history of calls, some of which panicked, the model lists exactly the rules it would list had all of them returned. AddRule and RemoveRule on a policy section panic exactly when they would change the section and one of the matchers built on it is of that kind; otherwise they answer and announce as always, and repeating a call answers false. Of the matchers built on the section those before the first of that kind hear of the change and those after it do not, so decisions with a harmless matcher built later stop following the rules: a removed rule goes on granting. The section stays in this state, whatever is called, until it is defined again.", "quantifier": "every history of calls on a model by a program that recovers from panics, every matcher and order of building, every rule, every map iteration order", "why_tests_cant": "the state after a panic depends on which matchers were built when, and every later call runs on it", "anchors": ["model/model.go:AddRule,RemoveRule,BuildMatcherFromDef,BuildMatcher", "model/policy/policy.go:AddRule,RemoveRule,Clear", "model/matcher/matcher.go:NewMatcher,addRuleHelper,removeRuleHelper"]}
{"id": "C115", "title": "Requests that a matcher opens to everybody", "statement": "When a matcher has, after its rules part f, an alternative t that speaks of the request and of literals only (comparisons, calls, or the operator in), then for every history of rules: in a section without an effect column and with the effect some(where (p.eft == allow)), Enforce allows every request for which t is true, whatever rules there are and were, and every other request exactly if f allows it. With an effect column an open request is decided as if every present rule applied to it - one denying rule about something else denies it under the effects that deny - and it is allowed under the allowing effects when there is no rule at all. For the example file with the operator in: allowed are all requests for data2 and data3 and the requests a present rule grants to the subject or a role it has.", "quantifier": "every model file with such a matcher, every history of rules around the build, every request of strings with an answer, every map iteration order", "why_tests_cant": "all rules ever added and removed decide what the matcher's tree holds when it is asked", "anchors": ["enforcer.go:Enforce", "model/matcher/matcher.go:rangeMatches,RangeMatches", "model/defs/matcher_def.go:buildExprTree,tokensToExpr", "examples/rbac_model_matcher_using_in_op.conf"]}
{"id": "C116", "title": "Role queries at the same time with a matching function", "statement": "On a role manager with a matching function, after any AddLink, DeleteLink and query calls made one at a time and any queries made at the same time, HasLink, GetRoles and GetUsers calls that run at the same time never panic, leave everything as it is, answer exactly what the links and the patterns say, and can always be run to their end. Each AddLink and DeleteLink made alone answers whether it changed a link, whatever order the patterns and names are visited in.", "quantifier": "every matching function, maximum hierarchy level, history of calls one at a time and of concurrent queries, set of concurrent queries, interleaving at every map operation, order of every Range", "why_tests_cant": "the answer depends on which patterns were matched with which names by every earlier call, and the calls interleave at every map operation", "anchors": ["rbac/role_manager.go:HasLink,GetRoles,GetUsers,AddLink,DeleteLink,getRole,rangeMatchingPatterns,rangeMatchingRoles", "rbac/role.go:rangeRoles,rangeUsers,addMatch"]}
{"id": "C117", "title": "Listeners that change rules in turn", "statement": "Listeners registered on a model may themselves add and remove rules. They may also panic, with a program that recovers. Whatever they do, all calls made together are one ordinary history of the model in which the program makes all its calls in its order, and no listener is told of a change twice; if none panics every listener is told of every change; a listener before which only listeners that change nothing are registered is told of all changes in their order. A listener that replays what it is told, as storage does, has the model's rules when the call has returned, if no earlier listener changes rules or panics, or if none panics and listeners react only by changing rules of a higher rank; with ranks every call returns.", "quantifier": "every model, program of calls, number of listeners, reaction of each listener (any function of what it was told, its answers and the model), map order, moment of the execution", "why_tests_cant": "reactions are arbitrary programs, nested to any depth, and the order in which a listener hears of changes depends on where in the list the reacting listener is registered", "anchors": ["model/model.go:AddRule,RemoveRule,Model", "storage/controller.go:addListener,addOp"]}
