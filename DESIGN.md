# Formal model of fastac in Rocq (Coq 8.16.1)

Source modelled: `/repo` (abichinger/fastac, Go). Everything below is about the Gallina
model in `rocq/theories`; the only tie to the Go code is the reading of the source, cited
definition by definition in the comments of the `*M.v` files.

## Layout

| files | content |
|---|---|
| `GoBase.v` | outcome type (value / Go panic), Go maps as association lists, Go slices with shared backing arrays, string helpers (`strings.Join`, `Split`, `ReplaceAll`, `Index`, `HasPrefix`) |
| `*M.v` | the model; no proofs. Every definition cites file and lines |
| `*Spec.v` | small independent specifications (sets, reachability, boolean formulas, segment matching ...) |
| `*P.v`, `*P2.v` ... | lemmas about the model |
| `Prop_*.v` | the property theorems, each followed by `Print Assumptions`, with an `Example` beside it whose case meets the hypotheses |
| `../seeded/LOG.jsonl` | wrong programs the theorems were tried against |

## Modelling conventions

* Go `string` = Coq `string` (bytes). Go `int` = `nat`/`Z` (no property is about overflow).
* A Go map / `sync.Map` is an association list with distinct keys. Wherever the code ranges over a
  map, the model takes the iteration order as an extra argument that the theorems quantify
  universally (any permutation), because Go randomises it.
* `nil`, errors and panics are explicit values (`outcome`). A panic ends the execution; `recover` is
  not used in /repo.
* Pointers that are observable (LRU list nodes, policies and matchers that outlive their map
  entry, `append` on shared slices) live in explicit heaps/backing arrays.
* A history is a list of calls, each with the map orders Go picks during that call. Properties about
  "every history" are proved by induction over this list, from a new object.
* Concurrency (C50, C51, C85, C86): a call is a resumption (a tree of atomic steps on the shared state)
  or a machine with explicit program points; a schedule is any list of goroutine numbers.
* Crash points (C48): the effects of saving on the file system are a list of steps that may be cut
  anywhere.
* govaluate (expression parser/evaluator), go-ini, regexp, net, path.Match and the event emitter are
  external. The evaluator is a parameter of the model (an arbitrary function of the expression text,
  the function table and the parameter lookups). The lexical parts this repository relies on (csv
  line parsing, line scanning, the regular expressions of `defs.go`) are modelled from their
  documented behaviour.

## Files

| file | content |
|---|---|
| `GoBase.v` | Shared base of the model: Go outcomes, maps, strings. |
| `GoBaseP.v` | Lemmas about the shared base. |
| `PolicyM.v` | Model of util/util.go (Hash, Join2D) and model/policy/. |
| `PolicySpec.v` | What it means for policy rules to form a set. |
| `PolicyP.v` | Lemmas about the policy model. |
| `Prop_Policy.v` | Properties C01, C02, C07 and C55, on one policy object (model/policy). |
| `DefsM.v` | Model of model/defs/defs.go, model/defs/util.go, model/eft and model/types. |
| `DefsP.v` | Lemmas about the definitions model. |
| `Prop_Defs.v` | Properties C23, C24 and C25 (definitions, model/defs). |
| `EffectorM.v` | Model of model/effector/default_effector.go and of the decision loop of enforcer.go:311-344. |
| `EffectorP.v` | Lemmas. |
| `Prop_Effect.v` | Properties C17 to C22: how the effects of the matching rules are combined. |
| `CacheM.v` | Model of util/cache.go at the level of its pointers. |
| `CacheSpec.v` | Reference LRU cache: the entries as a list, most recently used first. |
| `CacheP.v` | The pointer-level cache refines a list of entries. |
| `Prop_Cache.v` | Properties C31 and C32: the LRU cache of util/cache.go. |
| `PathM.v` | Model of the path matching part of util/builtin_operators.go. |
| `PathSpec.v` | What path matching means, on lists of segments. |
| `PathP.v` | Lemmas about path matching. |
| `Prop_Path.v` | Properties C52 and C53: path matching and pattern recognition. |
| `MatcherDefM.v` | Model of model/defs/matcher_def.go: compiling a matcher expression into a tree of stages. |
| `MatcherDefSpec.v` | Boolean formulas over atomic conditions: what a matcher expression means. |
| `MatcherDefP.v` | Lemmas about the matcher compiler. |
| `Prop_MatcherDef.v` | Property C08: compiling a matcher keeps its boolean meaning. |
| `MatcherM.v` | Model of model/matcher/matcher.go: the index of rules by matcher stage. |
| `MatcherSpec.v` | What a matcher means, independently of the index. |
| `MatcherP.v` | Lemmas about the matcher index. |
| `MatcherP2.v` | More lemmas about matchers: whole lifetimes, soundness of a walk, walks over an empty index, absence of panics. |
| `EvalM.v` | A concrete evaluator for a small fragment of expressions. |
| `Prop_Matcher.v` | Properties C09 to C16: what Filter and Enforce see of a policy through a compiled matcher. |
| `RbacM.v` | Model of rbac/role.go, rbac/role_manager.go, rbac/role_policy.go and rbac/role_manager_api.go. |
| `RbacSpec.v` | What role links mean. |
| `RbacP.v` | Lemmas about the role manager: the state behind a history, and the transparency of its match cache. |
| `RbacP2.v` | The role manager's calls, without their cache. |
| `RbacP3.v` | What a history of calls leaves in a role manager. |
| `RbacP4.v` | GetUsers, enumeration of links, SetMatcher. |
| `Prop_Rbac.v` | Properties C03, C26 to C30 and the role-manager half of C37. |
| `DomainM.v` | Model of rbac/domain_manager.go. |
| `DomainSpec.v` | What domains mean. |
| `DomainP.v` | Lemmas about the domain manager without domain matcher. |
| `DomainP2.v` | Without domain matcher the tree behaves like a family of independent role managers, one for each place. |
| `DomainP3.v` | The domain manager with a domain matcher, for calls that name exactly one domain. |
| `DomainP4.v` | The invariant of add-only histories under a domain matcher. |
| `Prop_Domain.v` | Properties C33 to C36 and C38. |
| `DomainP5.v` | Lemmas for enumerating the links of a manager with domains. |
| `Prop_DomainLinks.v` | Property C03 for grouping sections with domains, and C37 for domain managers. |
| `DomainP6.v` | Lemmas about installing matchers on a domain manager. |
| `Prop_DomainSet.v` | Property C37 for managers with domains: installing a domain matcher or a role matcher on a manager that already has links. |
| `Prop_DomainList.v` | Property C69: the listings of domains, GetAllDomains and GetDomains. |
| `ModelM.v` | Model of model/model.go, model/handlers.go, model/fm/function.go and rbac/role_policy.go: sections, rules, matchers. |
| `ModelSpec.v` | What a history of calls on a model means, section by section. |
| `ModelP.v` | Invariants of the model. |
| `ModelP2.v` | Invariants of the model: rules and matchers. |
| `ModelP3.v` | Invariants of the model: every call, every history. |
| `ModelP4.v` | Lemmas about the rules a model holds. |
| `ModelP5.v` | Lemmas about one more AddRule or RemoveRule. |
| `ModelP6.v` | Lemmas about definitions and about the matchers of a model. |
| `Prop_Model.v` | Properties C01, C02, C03, C04, C05, C06 and C07 at the API of a model: any number of policy and grouping sections, matchers attached or not. |
| `Prop_ModelDefs.v` | Properties C54, C56 and C57: the definitions of a model, and C10/C13 for the matchers a model has built. |
| `Prop_Load.v` | Properties C54 (a model's text reads back as the model) and C68 (loading a model text). |
| `BuiltinM.v` | Model of the functions a matcher can call without being given any (util/builtin_operators.go, model/fm/function.go, model/fm/global.go). |
| `BuiltinSpec.v` | What the built-in functions mean. |
| `BuiltinP.v` | Lemmas about the built-in functions. |
| `Prop_Builtin.v` | Properties C70 (built-in functions report bad arguments), C71 (ipMatch) and C72 (which functions a matcher can call). |
| `StorageM.v` | Model of storage/controller.go, storage/adapter.go, storage/adapter/noop_adapter.go and of the storage side of enforcer.go. |
| `StorageSpec.v` | What a user of the storage side observes, and what adapters do. |
| `StorageP.v` | Lemmas about the storage controller and the storage side of the enforcer. |
| `StorageP2.v` | Histories of an enforcer: conservation of changes, and the invariant behind "storage follows the model". |
| `StorageP3.v` | Storage follows the model: the invariant and its preservation; waiting, loading and replacing adapters. |
| `StorageP4.v` | Conservation of changes, waiting, loading, replacing the adapter. |
| `Prop_Storage.v` | Properties C39 - C45, C49 and C60 - C62: storage controllers, adapters and the storage side of the enforcer. |
| `FileM.v` | Model of storage/adapter/fileadapter.go and util/util.go:19-27. |
| `FileSpec.v` | Which rules a text file of comma separated values can hold. |
| `FileP.v` | Lemmas about the csv reader, the line scanner and the writer. |
| `Prop_File.v` | Properties C46, C47 and C48 of the file adapter (storage/adapter/fileadapter.go). |
| `EnforcerM.v` | Model of context.go and of the decision part of enforcer.go: context options, Enforce, Filter and RangeMatches. |
| `EnforcerSpec.v` | What the options of an Enforce or Filter call select, in terms of the history of definitions. |
| `EnforcerP.v` | Lemmas about contexts, Enforce and Filter. |
| `Prop_Enforce.v` | Properties C15 and C17 to C22 for whole Enforce and Filter calls on a reachable model, with any context options. |
| `Prop_Query.v` | Properties C10 to C13 and C17 for whole Filter and Enforce calls that use a matcher of the model: which stored rules are reported and what is decided. |
| `FunctionsSpec.v` | Which function a name stands for in a matcher, by the history of calls. |
| `FunctionsP.v` | Lemmas about the function map of a reachable model. |
| `Prop_Functions.v` | Property C66: a role function in a matcher answers from the current rules of its grouping section. |
| `SafeSpec.v` | Calls that keep to the documented shape of keys, rules and matchers. |
| `SafeP.v` | Lemmas. |
| `Prop_Safe.v` | Property C67 (and C09 for whole histories): which calls on a model panic. |
| `RbacE2ESpec.v` | The role based access control model of the documentation (examples/rbac_model.conf) and the histories an application makes with it. |
| `Prop_E2E.v` | Property C59: the decision of the documented RBAC model, from rules to Enforce. |
| `SimP.v` | Two models that differ only in matchers nobody refers to: one runs like the other. |
| `Prop_Pure.v` | Property C64: what a query leaves behind. |
| `Prop_QueryErr.v` | Property C65: when Enforce and Filter panic instead of returning an error. |
| `SyncCacheM.v` | Model of the synchronised cache of util/cache.go:83-104: calls on several goroutines, interleaved at every read and write of a pointer or of the map. |
| `SyncCacheP.v` | Lemmas about interleaved calls on the synchronised cache. |
| `Prop_SyncCache.v` | Property C50: concurrent calls on the synchronised cache. |
| `SyncEnforceM.v` | Model of several Enforce calls that run at the same time on one model (model/matcher/matcher.go:170-255, enforcer.go:311-344). |
| `Prop_SyncEnforce.v` | Property C51: Enforce calls that run at the same time. |
| `AliasM.v` | Model of the storage of rules with Go slices as references: AddRule keeps the caller's array (model/model.go:248-284, model/policy/policy.go:38-57, model/matcher/matcher.go:122-168, storage/controller.go:64-71 and 103-114). |
| `AliasSpec.v` | Specification for C58: rules as values. |
| `Prop_Alias.v` | Property C58: stored rules and the caller's slices. |
| `Prop_Adhoc.v` | Property C73: a query that brings its own matcher text searches the rules as they are at the time of the call, in policy sections and in grouping sections. |
| `Prop_Group.v` | Property C74: a configured matcher over a grouping section follows the rules of the section. |
| `AppSpec.v` | Applications with one request, policy, effect and matcher definition and at most one grouping section, as in most model files of examples/: their configuration, their histories, and what their matcher means. |
| `Prop_App.v` | Property C75: an application with one policy section decides by the boolean meaning of its matcher over the rules present. |
| `AppsSpec.v` | Three kinds of model files of examples/ and what they are meant to decide: access control lists (basic_model.conf, basic_without_users_model.conf, basic_without_resources_model.conf, with any number of columns), RBAC with domains (rbac_with_domains_model.conf) and RBAC with denials (rbac_with_deny_model.conf). |
| `Prop_Apps.v` | Properties C76 to C78: what access control lists, RBAC with domains and RBAC with denials decide, from rules to Enforce. |
| `FileWorldM.v` | The world of StorageM when adapter 0 is a FileAdapter (storage/adapter/fileadapter.go) and nothing else writes its file. |
| `PersistSpec.v` | When a file adapter works, and calls whose rules a file can hold. |
| `PersistP.v` | Lemmas: how the controller behaves with an adapter that fails nowhere along the calls actually made, and what a file holds after those calls. |
| `Prop_Persist.v` | Properties C79 - C81: an enforcer whose adapter is a file, and starting again from that file. |
| `RestartSpec.v` | Applications (AppSpec) that keep their rules in a policy file. |
| `Prop_Restart.v` | Property C81: a restart from the policy file changes no decision. |
| `SettersM.v` | Model of handing a policy object to a model with model/model.go:325-327 [SetPolicy] (IModel.SetPolicy of model/model_api.go). |
| `SettersSpec.v` | What a history with SetPolicy means. |
| `Prop_Setters.v` | Property C82: a policy handed over with SetPolicy. |
| `AbacSpec.v` | Two more kinds of model files of examples/ and what they are meant to decide: rules that carry a condition on the request (abac_rule_model.conf), and access control lists with a super user (basic_with_root_model.conf). |
| `Prop_Abac.v` | Properties C83 and C84: what rules with a condition and access control lists with a super user decide, from rules to Enforce. |
| `SyncRoleM.v` | Model of calls on a role manager that run at the same time (rbac/role.go, rbac/role_manager.go). |
| `SyncRoleSpec.v` | What calls on a role manager that run at the same time are meant to do. |
| `SyncRoleP.v` | Lemmas about role manager calls that run at the same time. |
| `Prop_SyncRole.v` | Properties C85 and C86: calls on a role manager that run at the same time. |
| `MultiSpec.v` | Model files with any number of definitions in each section, such as multiple_policy_definitions_model.conf and rbac_with_resource_roles_model.conf of examples/: their histories, and what each of their matchers means. |
| `Prop_Multi.v` | Property C87: in a model with several definitions every matcher decides by its own meaning over its own section. |
| `Prop_Columns.v` | Property C88: a matcher that compares requests and rules column by column decides by the rules present, for any number of columns, grouping sections and other definitions. |
| `FiltersSpec.v` | Filters as in the README ("Advanced Policy Filtering"): a matcher text of conditions on the columns of one section, each against a constant. |
| `Prop_Filters.v` | Property C89: the filters of the README report exactly the rules that meet their conditions. |
| `Prop_Monotone.v` | C90: decisions depend on the rules that are present only, and more rules grant more (C88 for two histories of the same file). |
| `Prop_LoadAny.v` | Property C91: loading a policy file with any content. |
| `LogicSpec.v` | What a matcher means that is built with and, or and parentheses from comparisons and function calls over the values of the request and of a rule: every model file of examples/ that does not use eval. |
| `Prop_Logic.v` | Property C92: a matcher of comparisons and function calls decides by its logical meaning. |
| `SyncDomainM.v` | Model of calls on a domain manager that run at the same time (rbac/domain_manager.go). |
| `SyncDomainSpec.v` | What calls on a domain manager that run at the same time are meant to do: the calls of a domain do what SyncRoleSpec says, and domains do not meet. |
| `SyncDomainP.v` | Lemmas about calls on a domain manager that run at the same time. |
| `Prop_SyncDomain.v` | Property C93: calls on a domain manager that run at the same time. |
| `RequestSpec.v` | Matchers about the request alone, as in abac_model.conf and abac_not_using_policy_model.conf of examples/: no condition names a column of a rule. |
| `Prop_Request.v` | Property C94: a matcher about the request alone decides on the request alone. |
| `UserEffectorM.v` | Model of Enforce with an effector written by the user of the library (model/effector/effector.go:19-25, passed with the context option SetEffector or stored with Model.SetEffector). |
| `UserEffectorSpec.v` | What an effector written by the user is asked, and what its answers decide. |
| `Prop_UserEffector.v` | Property C95: what an effector written by the user is asked and how its answers decide. |
| `LogicTextSpec.v` | Queries that bring their own matcher, a formula of comparisons and function calls (README.md:77-93, Advanced Policy Filtering; LogicSpec.v for the formulas and their meaning). |
| `Prop_LogicText.v` | Property C96: a query that brings its own matcher is answered by the logical meaning of that matcher, for the rules present at the time of the call. |
| `PatternsM.v` | Calls on a role manager, among them [SetMatcher]. |
| `PatternsSpec.v` | Patterns as users. |
| `RbacP5.v` | Patterns as users: what a role manager answers about ordinary names, with patterns that may stand for one another and matchers set at any time. |
| `Prop_Patterns.v` | Property C97: patterns as users, whenever the matcher is set. |
| `RoleAccessM.v` | Direct calls on the role managers of a model: [GetModel().GetRoleManager(key)] and then a method of the manager, as in example_matcher_test.go:61-67 and model_test.go:306-338. |
| `RoleAccessSpec.v` | What matchers mean when the role managers of the model are also used directly: links added and deleted past the model, and patterns. |
| `LogicP.v` | The meaning of formulas with any meaning of calls (the body of C92). |
| `RoleAccessP.v` | Lemmas for C98: a model whose role managers are used directly next to the model that only gets the calls on the model. |
| `Prop_RoleAccess.v` | Property C98: matchers when the role managers of the model are used directly. |
| `LeftoverSpec.v` | What the rules a matcher remembers leave behind, in terms of its formula. |
| `LeftoverP.v` | The leftovers of the index (C10, C12) in terms of formulas. |
| `Prop_Leftover.v` | Property C99: what a matcher of comparisons and calls decides, with what removed rules leave behind. |
| `DomainPatternSpec.v` | Patterns in a manager with domains, as names and as domains: the links a history of calls leaves and what follows from them. |
| `DomainP7.v` | Lemmas about managers with domains whose matchers are set and changed. |
| `Prop_DomainPattern.v` | Property C100: patterns as names and as domains, in the managers of a model and in the matchers that use them. |
| `Prop_LogicMono.v` | C101: whatever the logic of a matcher, decisions depend on the rules that are present only, and more rules grant more (C92 for two histories of the same file). |
| `RestartFileSpec.v` | Processes with any model file (MultiSpec) that keep their rules in a policy file. |
| `Prop_RestartFile.v` | Property C102: a restart from the policy file changes no decision, for any model file and any matcher of comparisons and function calls. |
| `UserRoleM.v` | Model of a model that uses role managers written by the user of the library: model/model.go:334-337 [SetRoleManager] with any implementation of rbac/role_manager_api.go:22-42 [IRoleManager], or with nil. |
| `UserRoleSpec.v` | What is expected of a model with functions and role managers of the user. |
| `UserRoleP.v` | Lemmas for C103 and C104: a model with other functions next to the model as the file loaded it. |
| `Prop_UserRole.v` | Properties C103 and C104: functions registered on a model, and role managers written by the user. |
| `UserMatcherM.v` | Model of Enforce and Filter with a matcher written by the user of the library: any implementation of model/matcher/matcher_api.go:8-11 [IMatcher], passed with the context option SetMatcher (context.go:38-39) or stored with model/model.go:344-346 [SetMatcher]. |
| `UserMatcherSpec.v` | What a matcher written by the user reports, and what that decides. |
| `Prop_UserMatcher.v` | C105: matchers written by the user of the library. |
| `StoreSpec.v` | Adapters that hold a set of rules, and may refuse a change that would change nothing - as a database table with a unique key does. |
| `StoreP.v` | Lemmas: the changes a model announces are effective, and an adapter that takes effective changes takes all that the controller asks. |
| `Prop_Store.v` | Property C106: an adapter is asked only for changes that change what it holds. |
| `RestartFileP.v` | Lemmas: models set up from a file whose rules come from storage, and processes that load them. |
| `StoreRestartSpec.v` | Processes that keep their rules in storage of any kind: a database, a service. |
| `Prop_StoreRestart.v` | Property C107: restarts from storage of any kind change no decision. |
| `ControllersM.v` | Model of storage controllers in the hands of the user: those kept from GetStorageController, also after SetAdapter has replaced them, and further ones made with storage.NewStorageController on the model of the enforcer. |
| `ControllersSpec.v` | What the storage controllers of one model are told and what they pass on. |
| `ControllersP.v` | Any number of controllers on one model. |
| `Prop_Controllers.v` | Property C108: several storage controllers on one model. |
| `UserPolicyM.v` | Model of policies written by the user: any implementation of model/policy/policy_api.go:15-22 [IPolicy] that is handed to a model with model/model.go:325-327 [SetPolicy]. |
| `UserPolicySpec.v` | What it takes for a user-written policy to be followed, and the plain history that a history with user-written policies amounts to. |
| `UserPolicyP.v` | Lemmas on user-written policies. |
| `Prop_UserPolicy.v` | Property C109: policies written by the user. |
| `ArgsSpec.v` | The arguments a text names: [p_sub], [r2_obj], [g_x], ... |
| `ArgsP.v` | Lemmas about the arguments of a matcher definition. |
| `Prop_Args.v` | Property C110: a matcher definition lists the arguments its expression names. |
| `CrashSpec.v` | What a crash leaves in storage. |
| `CrashP.v` | Lemmas: at every moment the adapter holds what the model held at some earlier moment. |
| `Prop_Crash.v` | Property C111: a crash leaves the storage as it was meant to be at some moment. |
| `RecoverM.v` | Model of rbac/role_manager.go with a matching function that may panic, in a program that recovers and goes on using the role manager. |
| `RecoverSpec.v` | What survives recovered panics. [isp n]: the name [n] is a pattern; [bad p]: the matching function panics when [p] is the pattern. |
| `RecoverP.v` | The role manager under recovered panics. |
| `RecoverP2.v` | What every call leaves behind, whether it returned or panicked. |
| `RecoverP3.v` | Histories with recovered panics. |
| `RecoverP4.v` | Which calls panic, for a matching function that panics on malformed patterns. |
| `Prop_Recover.v` | C112: a role manager whose matching function panics, in a program that recovers. |
| `DelayedSpec.v` | Processes that save when they like: autosave may be switched on and off and delayed. |
| `DelayedP.v` | Lemmas: tidy processes save with an empty queue and end with an empty queue. |
| `Prop_Delayed.v` | Property C107, second part: restarts of processes that delay their saves. |
| `FailM.v` | Programs that recover from the panics of failing adapters. |
| `FailSpec.v` | Specification: programs that recover from storage failures. |
| `FailP.v` | Lemmas about programs that recover from storage failures. |
| `FailP2.v` | Rules that are not among the lost changes are stored or queued as the model has them. |
| `Prop_Fail.v` | Property C113: a program that recovers from storage failures. |
| `WideM.v` | Programs that recover from the panics of rule changes. |
| `WideSpec.v` | Matchers attached to the sections of a model. |
| `WideP.v` | The index of a matcher after recovered panics. |
| `WideP2.v` | Recovered panics of a model: the same results where the call returns, the listeners, and the rules compared with a model without matchers. |
| `WideP3.v` | Which matchers hear of a change, and which changes panic. |
| `Prop_Wide.v` | * C114: programs that recover from the panics of rule changes |
| `OpenSpec.v` | Matchers with an alternative about the request alone (the files basic_with_root_model.conf and rbac_model_matcher_using_in_op.conf of examples/). |
| `Prop_Open.v` | Property C115: alternatives about the request alone, from rules to Enforce. |
| `SyncPatSpec.v` | What queries that run at the same time on a role manager with a matcher are meant to answer. |
| `SyncPatP.v` | Lemmas about queries on a role manager with a matcher that run at the same time. |
| `Prop_SyncPat.v` | Queries that run at the same time on a role manager with a matcher (C116). |
| `ReactM.v` | Model of listeners that the user registers on a model (Model.AddListener, model.go:84, api/interfaces.go:51-53) and that change rules in turn. |
| `ReactSpec.v` | What listeners that change rules in turn are meant to be told. |
| `ReactP.v` | Lemmas about listeners that change rules in turn. |
| `Prop_React.v` | Property C117: listeners that change rules in turn. |

## Plan and outcome per property

`_refuted` means: the statement as a user would want it is false of the modelled code, and the theorem
of that name proves this with a witness. The restriction under which it holds (or the exact behaviour)
is proved next to it; the manifest then says "partial".

| id | property | plan | outcome |
|---|---|---|---|
| C01 | Policy rules form a set | PolicyM.v models Policy as a Go map keyed by the comma-joined rule; refinement to a finite set by induction over the operation list. | proved |
| C02 | Distinct rules never interfere | false of the code: `_refuted` witness (two rules with equal join); exact characterisation: rules interact iff their joined texts are equal. | partial |
| C03 | Role rules form a set of links | RbacM.v models Role/RoleManager maps; invariant (roles/users inverse) and refinement to a set of pairs. | proved |
| C04 | RangeRules enumerates the whole rule set | Model.RangeRules with arbitrary iteration orders; permutation of the rule set. | proved |
| C05 | RangeRules stops when the callback says so | false of the code for several sections / role managers: `_refuted`; positive part for a single p section. | partial |
| C06 | Rules of unknown sections are rejected without effect | model step function returns the state unchanged; proved for all states. | partial |
| C07 | Rule events mirror the rule set | event log of the model step function; induction over histories. | partial |
| C08 | Matcher compilation preserves the boolean meaning | buildExprTree modelled with shared slices (append aliasing). `_refuted` for `(a\|\|b)&&(c&&d)`; proved for every expression in which the aliasing cannot strike, and for the alias-free variant for all expressions. | partial |
| C09 | Every accepted matcher can be evaluated | index trie with two child slots; panic outcome; `_refuted` for three disjuncts, proved for trees of width <= 2. | partial |
| C10 | Policy indexing is transparent | trie invariant; set equality of yielded rules and full scan; for all orders. | partial |
| C11 | Removed rules stop matching | same invariant under removals. | partial |
| C12 | Revoking all access denies | `_refuted` (stale node + stage without policy arguments); characterisation of what can be yielded. | partial |
| C13 | Filter reports each rule once | `_refuted` for overlapping disjuncts; proved for disjunction-free matchers. | partial |
| C14 | Empty policy is evaluated against one blank rule | direct computation on the empty trie. | proved |
| C15 | Evaluation errors are reported | `_refuted` for later stages; proved for one-stage matchers. | partial |
| C16 | Stage evaluation depends only on the rule itself | proved under locality of `ev`; `_refuted` for eval() and for mis-recognised identifiers. | partial |
| C17 | Decisions do not depend on map iteration order | consequence of C18-C20; `_refuted` for indeterminate effects. | partial |
| C18 | Allow-override decision | fold over the yielded effects with early exit. | proved |
| C19 | Deny-override decision | same. | proved |
| C20 | Allow-and-no-deny decision | same; `_refuted` in general, proved when effects are allow/deny. | partial |
| C21 | Unsupported effects fail closed | same. | proved |
| C22 | Unsupported effects are reported | `_refuted`; exact result (false, nil) proved for all. | partial |
| C23 | Effect column semantics | case analysis on lengths; omitted column `_refuted`. | partial |
| C24 | Named parameters select the named column | same. | partial |
| C25 | Literals in matchers are taken literally | regexp replacement modelled as string function; `_refuted`. | partial |
| C26 | HasLink is bounded reachability | level-by-level search = bounded reachability, induction on level. | proved |
| C27 | Role queries are read-only | state equality up to cache and map order. | partial |
| C28 | GetRoles and GetUsers are exact and inverse | invariant. | proved |
| C29 | Pattern roles | pattern graph specification; invariant on matched/matchedBy. | partial |
| C30 | Match caching is transparent | cache invariant; `_refuted` for names containing `$`. | partial |
| C31 | LRU cache contract | pointer-level model refined to a list. | proved |
| C32 | A cache Get returns the last Put | `_refuted`; exact statement: first value wins until eviction. | partial |
| C33 | Domains are isolated | tree of managers refined to a map from domain paths to link sets. | partial |
| C34 | Domain names are arbitrary strings | `_refuted`. | partial |
| C35 | Domain patterns apply to every matching domain | invariant for add-only histories. | partial |
| C36 | Explicit domain links survive pattern links | `_refuted`. | partial |
| C37 | Installing matchers preserves links | `_refuted` / proved for RoleManager. | partial |
| C38 | Domain queries are read-only and cannot crash | `_refuted`. | partial |
| C39 | Flush delivers every change in order | queue functions; run-length grouping spec. | proved |
| C40 | Storage follows the model | simulation between event log and adapter set. | partial |
| C41 | Failed Flush loses nothing | `_refuted`; exact lost set. | partial |
| C42 | AddWait delays autosave by exactly n changes | induction on n. | proved |
| C43 | Loading is not written back | enforcer step. | proved |
| C44 | Replacing the adapter | enforcer step with several controllers. | proved |
| C45 | A file path is a usable adapter | `_refuted`. | partial |
| C46 | File save/load round-trip | csv/scanner model; proved for plain values, `_refuted` in general. | partial |
| C47 | File adapter edits are set operations | composition. | partial |
| C48 | Saving is crash-atomic | file-system step model with crash points; `_refuted`, exact reachable contents. | partial |
| C49 | Batch calls restore autosave and flush once | enforcer step. | proved |
| C50 | Concurrent cache reads are safe | small-step interleaving of pointer operations; `_refuted`. | partial |
| C51 | Concurrent Enforce calls are independent | small-step interleaving of the shared function table; `_refuted`. | partial |
| C52 | Path matching | segment specification; proved for paths without a literal `*` segment, `_refuted` in general. | partial |
| C53 | Patterns are recognised consistently | proved. | proved |
| C54 | Model text round-trip | proved on the string model. | proved |
| C55 | Distinct projection | proved / collisions. | proved |
| C56 | Redefining and removing sections | model heap; `_refuted` for stale matchers, proved frame. | partial |
| C57 | Unknown names are reported as errors | `_refuted`. | partial |
| C58 | Stored rules do not alias the caller's slice | buffer heap; `_refuted`. | partial |
| C59 | End-to-end RBAC decision | composition with a concrete evaluator for the `==`/call fragment. | partial |
| C60 | Replacing the adapter keeps pending changes | `_refuted`; flushing first proved. | partial |
| C61 | Storage follows a replaced model | `_refuted` for every state and history; proved when the adapter is set again. | partial |
| C62 | A storage failure with autosave is reported as an error | `_refuted`: exact condition of the panic; no panic without a failure. | partial |
| C63 | A dotted key splits at its first dot | proved. | proved |
| C64 | Queries have no side effects | simulation between models that differ in unreferenced matchers (SimP); `_refuted` for ad-hoc texts with three alternatives. | partial |
| C65 | Queries report problems as errors | exact panics of context building and search; `_refuted`. | partial |
| C66 | A role function answers from the current rules of its section | function map as history; composition with C26/C33. | proved |
| C67 | Calls on a model do not panic | totality of every call from the reachable-state invariant; `_refuted`, exact condition. | partial |
| C68 | Loading a model text is setting its definitions | loading is proved equal to a list of calls; consequences for GetDef and the first bad key by C56. | proved |
| C69 | Domain listings are exact | `allDomainsMap`/`GetDomains` over the links of `domain_listing`; answers per domain by C33; `_refuted` (joined texts clash), exact when texts are distinct. | partial |
| C70 | Built-in functions report problems as errors | wrappers as functions of argument lists; `_refuted` (invalid pattern, non-address), exact panic condition. | partial |
| C71 | ipMatch is equality of addresses and membership in networks | texts to bytes to bits; masks proved to compare prefixes. | proved |
| C72 | A new model knows the built-in and the registered functions | last registration in a list, any copying order. | proved |
| C73 | A query with its own matcher text searches the rules as they are now | the matcher is built over the listing of the section at the call; its life has no later events. | proved |
| C74 | A configured matcher over a grouping section follows the section | invariant: the matcher has lived through the listing at the build and the events since; `_refuted` for clearing. | partial |
| C75 | An application decides by the boolean meaning of its matcher | induction over the history gives the query invariant; compile_faithful turns the text into the formula; the reported set is the set of its models. | proved |
| C76 | An access control list allows exactly the listed requests | instance of C75 for conjunctions of any length. | proved |
| C77 | RBAC with domains grants by roles of the request's domain | instance of C75 with the role function of C66 in a domain. | proved |
| C78 | RBAC with denials: a denial wins | instance of C75 with the effect column of C23. | proved |
| C79 | A policy file follows the enforcer that writes it | the storage invariant of C40 composed with the file format theorems of C46-C48 through a world made of one file; `_refuted` for a missing file and for texts the format trims. | partial |
| C80 | An enforcer started from the policy file has the rules it was saved with | the loaded rules are those of C79's file; one AddRule per rule; present-set algebra. | partial |
| C81 | A restart from the policy file changes no decision | C79 and C80 give two histories with the same rules; C76, C77 and C78 say that decisions depend on the present rules only. | partial |
| C82 | SetPolicy hands over a policy with its rules | the state after a hand-over is equal to that after redefining the section and repeating the calls (SettersM.v), so the theorems about histories apply; `_refuted` for built matchers and for grouping sections. | partial |
| C83 | Rules with a condition decide by their conditions | instance of C75 with eval(...) as a condition that reads one column and the request (AbacSpec.v); `_refuted` for conditions that name other columns. | proved |
| C84 | A super user is never locked out and no one else gains | C75 when the second alternative is false; when it is true, the exact reports of C10 (a present rule, or the blank rule when there is none). | proved |
| C85 | Calls on a role manager may run at the same time | SyncRoleM: heap of role objects, one step per map operation, Range with explicit visits; rely/guarantee invariant over all goroutines of a phase, induction over schedules and phases; termination of every call run alone. `_refuted` by three schedules. | partial |
| C86 | Concurrent role queries do not disturb one another | C85 for a phase of queries, where throughout and sometime coincide; `_refuted` with a matcher by a schedule that panics. | partial |
| C87 | Every matcher of a model decides by its own text and section | Histories of a whole file of definitions (MultiSpec.file_history); ModelP6/C75 machinery for each matcher; induction over the build loop and the history. Example: C88_ex (two matchers over two sections). | partial |
| C88 | A matcher that compares columns allows exactly the requests covered by a rule | C87 with the meaning of == and of the role functions (C66, C22/C23); induction over columns. | proved |
| C89 | Filtering by constants reports exactly the matching rules | Text matchers (C73) on a file of definitions; `_refuted` for an empty section and an empty constant (the blank rule is reported). | partial |
| C90 | Adding a rule never revokes and removing one never grants | C88 for both histories; coverage is monotone in the present rules; the effect in force depends on the definitions only. | proved |
| C91 | Every policy file is loaded or reported | the loop of AddRule calls over the rules of any text by induction, with C67's exact description of the calls that panic carried along the history; the claim itself is false (a line of spaces, a grouping line with one name), so the panicking files are described exactly | partial |
| C92 | A matcher means what its logic says | formulas over comparisons and calls (LogicSpec) with their meaning given by present rules and column positions; each test is evaluated through C66 (role functions) and C23 (effect column), the formula through C87. False without conditions on the rule of empty values: witnesses are pathmatch_model.conf and ipmatch_model.conf | partial |
| C93 | Calls in domains that run at the same time keep to their domain | SyncDomainM interleaves the Loads and Stores of the maps of a tree of domain managers with the steps SyncRoleM gives the calls on a role manager; by an invariant on the tree each role manager sees a run of SyncRoleM of the calls of one domain, to which C85 applies. False when two updates open a domain, or a domain above theirs, at the same time: one link is lost (two witnesses) | partial |
| C94 | A matcher about the request alone decides on the request alone | all conditions have one truth value for all rules (RequestSpec); the exact reports of C10 then give all present rules and, at least when there is none, the blank rule, whose effect is allow. `_refuted` for present rules none of which allows | partial |
| C95 | A user-written effector decides in the order it is asked | the effector is a parameter with a state of its own (UserEffectorM); induction on the number of questions along the rules Filter reports; `_refuted`: an error of the last answer does not deny | partial |
| C96 | A query with its own matcher is answered by the logic of that matcher | the value of every test by `test_value` (role functions: C66), the tree of the text by `compile_faithful`, then C73; `_refuted`: without a rule a query may be allowed | partial |
| C97 | Patterns as users, whenever the matcher is set | invariant of the manager that is exact for ordinary names only (`wholds`), kept by every call and by the rebuild of SetMatcher; then chains | proved |
| C98 | Role managers of a model used directly | twin runs: the model with and without the direct calls differ in the managers only (`twin_run`); each manager answers by its own calls (C33, C97); the logic of C92 with the truth of calls as a parameter (`logic_by`) | partial |
| C99 | A matcher with what removed rules leave behind | exact count of the index (`query_decides` and the occurrence theorem of the matcher) with the alternatives of the formula (`ways_alternatives`), what the index remembers (`recorded_remembered`) and the logic of C92 without its condition (`logic_parts`) | proved |
| C100 | Patterns as names and domains | C98 generalised over the meaning of the grouping functions (`direct_by`); the domain proofs (C33, C35, C37) redone under a name matcher; DomainP7 keeps the invariant for a whole history (matchers for names, then a domain matcher, then additions) | partial |
| C101 | Monotone decisions for logical matchers | formulas have no negation over calls, so their meaning (C92) grows with the present rules; `_refuted` where the rule of empty values passes a last test: removing a rule grants | partial |
| C102 | Restarts, any model file | invariant: the file reads as the rules of the model (C79); rule calls of the file's sections never fail, so the calls a process makes on its model are known exactly; presence is a function of these calls, hence of their concatenation over all processes; decisions by C101 | partial |
| C103 | Functions of the user | registrations before the file = a larger builtin table (equality of runs); after the file the model differs from one without the calls in the function map only (twin argument), which every query reads afresh; then as C92/C98 | partial |
| C104 | Managers of the user | UserRoleM: the manager is a record of functions on an abstract state; invariant: the manager in charge of a section is the replay of the calls the history tells it; matchers by the twin argument of C103 and C98 | partial |
| C105 | Matchers of the user | a search is a tree of reports that branches on the callback's answer; induction over it with the exact state of the callback after a list of rules; the library's matchers by the exact form of their queries | partial |
| C106 | Needed changes only | the events of a model are changes of its rule set (C01, C07); what is accepted and queued is what was announced (C39), so calls are effective in order; an adapter that takes those answers as one that never fails (PersistP) | partial |
| C107 | Restarts from any storage | each process is a run of C106 whose storage ends with the rules of its model; loading them gives a model with the same rules (C91), and decisions depend on the rules only (C92, C102) | partial |
| C108 | Several storage controllers | an invariant: a controller is in the emitter of the model iff it listens; each call lets adapter and queue of each controller grow by the announced changes, by induction over histories; replicas as in C40 | partial |
| C109 | User-written policies | a policy is any record of functions with a state; the object in the model shows what its Range gives; induction over histories, each announced change being one call on a built-in policy (as C82) | partial |
| C110 | Arguments of a matcher definition | an invariant of the shared arrays during compilation (every cell is a written sub-expression, a pending cell is never emptied) gives: the stages carry exactly the conditions; the argument search is characterised on texts between word breaks | partial |
| C111 | Crashes | induction over the calls with the part of the model's history that the storage has seen and the part that is queued; each call on the model announces at most one change, so every first part of the announced changes belongs to a first part of the calls; restarts by C107's loading lemma | partial |
| C112 | Panics that are recovered | the calls with a state that survives a panic; an invariant with the links of the calls that returned, the stored names (some without all their matches) and a sound cache; the panics by following the names known; refutations with a prefix matcher | partial |
| C113 | Recovered storage failures | the calls with the state that a panic leaves behind; the model compared with one without storage; an account of every change (accepted, refused, dropped, queued) and, per rule, an invariant between storage, queue and model; retrying refuted | partial |
| C114 | Recovered panics of rule changes | the calls with the state that a panic leaves behind; a simulation by a model without matchers for the rules; an invariant that the first matcher with three alternatives is stuck on every listed rule; which matchers hear of a change; decisions following the rules refuted | partial |
| C115 | Requests open to everybody | C99 for formulas f or t, with t true or false of the request alone; a case analysis on whether rules are remembered and present, settled by the answer itself; the example file with the operator in as an instance | partial |
| C116 | Concurrent queries with a matcher | SyncRoleM with a matcher; an invariant of the memory between calls (every known pattern is matched with every known name it covers, both ways), kept by each call that runs alone, also while a query creates the names it mentions and forgets them again, with what is left to unmatch as part of the invariant; concurrent queries about known names never write, what a Range still collects is constant, and what HasLink still searches decides its answer; a measure gives termination; an interleaving projects to each query | partial |
| C117 | Listeners that change rules in turn | ReactM: a stack of calls that have not returned (the program, EmitEvent before listener i, a listener running), one step at a time; invariants relate the changes made to what listener i was told and what the stack still has to tell it; with ranks the stack is ordered, so that two changes of one rule are never told out of order; a replay of the changes gives the rules (C07) | partial |

## Trusted base

* Coq 8.16.1's kernel (the theorems are closed terms checked by `coqc`; `vm_compute` is used for
  concrete examples and witnesses, so the bytecode conversion of the kernel is trusted too; no
  `native_compute`, no plugin, no `Program`).
* The reading of the Go source: that each `*M.v` definition does what the cited lines do. This cannot
  be proved; it is supported by the line citations, by the examples computed in the `Prop_*.v` files
  and by the wrong-program experiments in `seeded/LOG.jsonl`.
* The assumptions on external code listed below.
* No axioms. Only the Coq standard library is imported (`List`, `String`, `Ascii`, `Arith`, `ZArith`,
  `Bool`, `Lia`, `Permutation`). Loading `Lia` brings the module `Coq.ssr.ssrunder` into the
  environment, which declares seven parameters of a module type (`Under_rel` and the like); a tool that
  lists everything loaded shows them, no theorem here uses them (see Print Assumptions below).

### What of /repo is modelled

| Go file | model | left out |
|---|---|---|
| `util/util.go` | PolicyM (`Hash`, `Join2D`), FileM (`FileExists`) | - |
| `util/cache.go` | CacheM (pointers), SyncCacheM (locks and interleavings) | non-string keys |
| `util/builtin_operators.go` | PathM (path matching, pattern recognition, `PrefixMatcher`), BuiltinM (argument checks, all wrappers, `RegexMatch`, `IPMatch` with the IPv4, mask and containment code of package net) | regexp, path globbing and the reading of IPv6 texts are the parameters of `lib`; the panic of a role matcher on an invalid regular expression is covered for managers without domains (C112, RecoverM) |
| `model/policy/*` | PolicyM | the emitter library (synchronous call of the listeners, in order) |
| `model/defs/defs.go`, `util.go` | DefsM | `SplitMatcherKey` (unused) |
| `model/defs/matcher_def.go` | MatcherDefM, with shared slices of `append` | the tokenizer of govaluate (parameter) |
| `model/effector/*`, `model/eft`, `model/types` | EffectorM, DefsM; UserEffectorM (any user-written effector) | - |
| `model/matcher/matcher.go` | MatcherM; UserMatcherM (any user-written matcher); AliasM (rules as references); SyncEnforceM (interleaved searches) | govaluate's evaluation (parameter); EvalM is a concrete evaluator for examples |
| `model/fm/*` | ModelM, FunctionsSpec, BuiltinM (`DefaultFunctionMap`, `global.go`) | in the other files the initial table is the parameter `e_builtins` |
| `model/model.go`, `handlers.go` | ModelM; UserPolicyM for `SetPolicy` with user-written policies; WideM: what a rule change that panics in a matcher leaves behind | ini parsing (`LoadModel*` is the list of definitions it yields, followed by BuildMatchers); one policy object in two sections |
| `rbac/*` | RbacM (role manager), DomainM (domain manager), ModelM (`RolePolicy`); RoleAccessM (direct calls on the managers of a model); SyncRoleM (interleaved calls on a role manager), SyncDomainM (on a domain manager); UserRoleM (any user-written role manager); RecoverM (role manager whose matching function panics) | `Role.String`; concurrent calls on a domain manager with a matcher |
| `storage/controller.go`, `adapter.go`, `noop_adapter.go` | StorageM, with arbitrary adapters; ReactM: other listeners of the model, which may change rules; ControllersM: any number of controllers in the hands of the user; FailM: what a call that panics for its adapter leaves behind | what a panic in a listener leaves in the event library, controllers on several models at once |
| `storage/adapter/fileadapter.go` | FileM | read errors other than a missing file; permissions |
| `enforcer.go`, `context.go` | EnforcerM (contexts, Enforce, Filter, RangeMatches), StorageM (adapters, LoadPolicy, SavePolicy, Flush, batches, options) | logging |
| `log`, `api`, `str`, `*_test.go`, `testutil` | not modelled (interfaces, texts, tests) | |

### Assumptions on external code, and simplifications

* govaluate: an expression text either parses or not; evaluation is a function of the text, the
  functions and the parameters (no state). C59 assumes of the evaluator what
  `RbacE2ESpec.understands` says and shows an evaluator that meets it.
* The tokenizer of govaluate is a parameter; statements about matcher texts say which tokens they
  assume.
* Slice growth of `append` is a parameter (`e_grow`), as Go does not specify it.
* encoding/csv and bufio.Scanner are modelled for what `fileadapter.go` configures.
* Adapters other than the file adapter are arbitrary: their answers may depend on everything asked so
  far.
* SyncCacheM and SyncEnforceM: memory is sequentially consistent, and a data race does not abort the
  process. Go promises less. In particular two concurrent writes to the function map (C51) may abort a
  Go program outright; the theorems show what goes wrong even without that.
* ReactM: EmitEvent of the event library may be called from a listener, and then runs to its end before that listener goes on
  (the library is not in /repo; that it calls listeners synchronously and in order is assumed everywhere).
* SyncRoleM, SyncDomainM: operations on a sync.Map are atomic, a Range goes as its documentation says (any order; a key
  stored or deleted meanwhile may or may not be visited); the match cache is not part of it (C50).
* AliasM covers one policy section with one matcher; sections keep rules in the same way.

### Defects of the code found on the way

Each is a `_refuted` theorem with a concrete witness:
rules that differ only in where their commas are count as one (C02); RangeRules goes on after the
callback asked to stop (C05); an empty rule or key panics (C06, C67); ClearPolicy announces no removals
(C07, C40); `(a || b) && (c && d)` is compiled wrongly because `append` shares arrays (C08); three
alternatives make AddRule panic (C09, C67); index nodes outlive their rules, so a request can match after
all rules are gone (C12, C59); rules are reported twice for overlapping alternatives (C13); errors below the first
stage are swallowed (C15); eval sees another rule's values (C16); the first match decides under
allow-and-deny (C20); unsupported effects are not reported (C22); an omitted effect column is read from the
wrong column (C23, C24); dots in literals are rewritten (C25); names with `$` share cache entries (C27, C30);
pattern roles depend on insertion order (C29); a second Put is ignored (C32); two domain names are special
(C34); nested and overlapping domain patterns lose links (C35, C36, C37); a query about a pattern domain
leads to a nil dereference (C38); a failed flush loses changes (C41); a file path as adapter is
never used for saving (C45); saved files do not quote (C46, C47) and are not written atomically (C48);
concurrent cache reads corrupt the list (C50); concurrent Enforce calls share eval (C51);
a HasLink takes away the link an AddLink is adding (C85); two queries with patterns can panic (C86); a literal `*`
segment is a wildcard (C52); redefined sections leave stale matchers (C56); unknown names panic (C57, C65);
stored rules alias the caller's slice (C58); SetAdapter and SetModel lose changes (C60, C61); storage
failures with autosave panic (C62), leave the change in the model and lose it for storage, and trying again stores nothing (C113); a policy file with a line of one space or with `g, alice` makes LoadPolicy and NewEnforcer
panic (C91); with examples/pathmatch_model.conf a removed rule goes on allowing, for every action, and with
examples/ipmatch_model.conf Enforce panics while there are no rules (C92); of two AddLinks that open
a domain at the same time one is lost although both answer true (C93); errors of a user-written effector are never
reported, and that of its last answer does not even deny (C95); a link told to a model's role manager is announced
to nobody, not even when the same rule is added to the model afterwards (C98); removing a rule can grant access that
was denied (C101); a rule whose addition fails in a user-written role manager is announced, hence stored, if the
manager answers true with the error (C104); with a user-written matcher that goes on after it is told to stop, a rule
that allows undoes one that denied (C105); SavePolicy leaves changes queued that it has saved, so an adapter that refuses
duplicates fails the next Flush or makes AddRule panic, and LoadPolicy leaves a queued removal of a rule it brings back (C106);
a failing adapter of a second storage controller makes AddRule panic although the enforcer's adapter takes the change (C108);
a rule that a user-written policy takes while answering false is enforced but announced to nobody (C109);
after SavePolicy with changes queued, a crash during the next Flush leaves rules in storage together that the model never had together (C111);
a malformed regular expression given once to AddLink of a role manager with a matcher, though the call panics, makes the first call with every new name panic,
and the next one can wrongly answer false; SetMatcher loses links if the new matcher panics (C112);
after a recovered panic of AddRule or RemoveRule matchers built later no longer follow the rules, and a removed rule goes on granting (C114);
storage registered after a listener that takes an addition back is told of the removal first and keeps the rule, and registered after one that panics it misses a rule that the model has (C117).

## Print Assumptions

Every theorem listed in MANIFEST.json (410 of them) was passed to `Print Assumptions`; for each the
answer is `Closed under the global context`, that is, no axiom at all, not even one of the standard library.

| property | theorems (file) | assumptions |
|---|---|---|
| C01 | `C01_model_add`, `C01_model_remove` (Prop_Model.v); `C01_policy_set` (Prop_Policy.v) | none |
| C02 | `C02_no_interference_refuted`, `C02_no_interference_partial`, `C02_collision_exact` (Prop_Policy.v) | none |
| C03 | `C03_domain_links_set`, `C03_reserved_domain_refuted` (Prop_DomainLinks.v); `C03_extra_values_refuted` (Prop_Model.v); `C03_links_set`, `C03_short_rule_panics` (Prop_Rbac.v) | none |
| C04 | `C04_whole_rule_set` (Prop_Model.v) | none |
| C05 | `C05_stops_refuted`, `C05_stops_partial` (Prop_Model.v) | none |
| C06 | `C06_rejected_refuted`, `C06_rejected_partial` (Prop_Model.v) | none |
| C07 | `C07_model_events_partial`, `C07_clear_refuted` (Prop_Model.v); `C07_events_mirror`, `C07_one_event_per_change` (Prop_Policy.v) | none |
| C08 | `C08_unique_reading`, `C08_boolean_meaning_refuted`, `C08_boolean_meaning_partial`, `C08_without_or`, `C08_or_of_faithful`, `C08_compiling_terminates` (Prop_MatcherDef.v) | none |
| C09 | `C09_no_panic_refuted`, `C09_add_panics_iff`, `C09_no_panic_partial` (Prop_Matcher.v) | none |
| C10 | `C10_reported_exactly`, `C10_transparent_refuted`, `C10_transparent_partial`, `C10_only_satisfying` (Prop_Matcher.v); `C10_filter_exactly`, `C10_filter_only_satisfying`, `C10_filter_partial` (Prop_Query.v) | none |
| C100 | `C100_patterns_in_domains_partial`, `C100_patterns_in_matchers_partial` (Prop_DomainPattern.v) | none |
| C101 | `C101_more_rules_grant_more_partial`, `C101_same_rules_same_decisions_partial`, `C101_one_call_partial`, `C101_removal_grants_refuted` (Prop_LogicMono.v) | none |
| C102 | `C102_restart_partial`, `C102_any_number_of_restarts_partial`, `C102_other_rules_refuted` (Prop_RestartFile.v) | none |
| C103 | `C103_registered_first`, `C103_functions_partial` (Prop_UserRole.v) | none |
| C104 | `C104_manager_is_told`, `C104_a_set_of_links`, `C104_managers_decide_partial`, `C104_failed_rule_announced_refuted`, `C104_library_fails_quietly` (Prop_UserRole.v) | none |
| C105 | `C105_filter`, `C105_enforce`, `C105_unknown_section`, `C105_stopping_matchers`, `C105_built_in_agrees`, `C105_settled_refuted`, `C105_errors_deny` (Prop_UserMatcher.v) | none |
| C106 | `C106_needed_changes_partial`, `C106_autosave_partial`, `C106_save_refuted`, `C106_save_panics_refuted`, `C106_load_refuted` (Prop_Store.v) | none |
| C107 | `C107_delayed_partial` (Prop_Delayed.v); `C107_any_storage_partial` (Prop_StoreRestart.v) | none |
| C108 | `C108_each_controller`, `C108_flush`, `C108_replaced`, `C108_replica_partial`, `C108_replicas_agree_partial`, `C108_timing`, `C108_failing_replica_refuted`, `C108_shared_adapter_refuted` (Prop_Controllers.v) | none |
| C109 | `C109_answers`, `C109_listing`, `C109_same_state`, `C109_matchers_follow_partial`, `C109_silent_refuted`, `C109_announced_refuted` (Prop_UserPolicy.v) | none |
| C11 | `C11_removed_refuted`, `C11_removed_partial` (Prop_Matcher.v); `C11_filter_partial` (Prop_Query.v) | none |
| C110 | `C110_conditions`, `C110_policy_arguments`, `C110_request_arguments`, `C110_section`, `C110_one_section` (Prop_Args.v) | none |
| C111 | `C111_crash_partial`, `C111_restart_partial`, `C111_save_refuted` (Prop_Crash.v) | none |
| C112 | `C112_panics`, `C112_poisoned`, `C112_clean`, `C112_links`, `C112_justified`, `C112_answers_refuted`, `C112_rebuild_partial`, `C112_rebuild_refuted` (Prop_Recover.v) | none |
| C113 | `C113_model`, `C113_panics`, `C113_same_calls`, `C113_every_change`, `C113_single_changes`, `C113_other_rules`, `C113_save_repairs`, `C113_try_again`, `C113_changes_nothing_refuted` (Prop_Fail.v) | none |
| C114 | `C114_same_calls`, `C114_rules`, `C114_panics_iff`, `C114_who_is_told`, `C114_again`, `C114_stays`, `C114_redefined`, `C114_failed_build`, `C114_revoked_rule_refuted` (Prop_Wide.v) | none |
| C115 | `C115_open_requests`, `C115_open_without_effects`, `C115_in_op_file` (Prop_Open.v) | none |
| C116 | `C116_queries_at_once_partial`, `C116_phases_partial`, `C116_next_call_returns_partial`, `C116_unknown_names_refuted` (Prop_SyncPat.v) | none |
| C117 | `C117_one_history`, `C117_program_goes_on`, `C117_every_change_once`, `C117_at_most_once`, `C117_in_order`, `C117_replica_partial`, `C117_returns`, `C117_veto_refuted`, `C117_panic_refuted`, `C117_endless_refuted` (Prop_React.v) | none |
| C12 | `C12_revoked_refuted`, `C12_revoked_exact`, `C12_revoked_partial` (Prop_Matcher.v); `C12_filter_partial`, `C12_enforce_partial` (Prop_Query.v) | none |
| C13 | `C13_once_refuted`, `C13_once_partial`, `C13_once_without_or` (Prop_Matcher.v); `C13_filter_partial` (Prop_Query.v) | none |
| C14 | `C14_blank_rule` (Prop_Matcher.v) | none |
| C15 | `C15_enforce_error`, `C15_enforce_fails_closed` (Prop_Enforce.v); `C15_errors_refuted`, `C15_errors_partial`, `C15_no_spurious_error` (Prop_Matcher.v) | none |
| C16 | `C16_own_values_refuted`, `C16_own_values_partial` (Prop_Matcher.v) | none |
| C17 | `C17_order_refuted`, `C17_order_independent_partial` (Prop_Effect.v); `C17_enforce_refuted` (Prop_Enforce.v); `C17_enforce_partial` (Prop_Query.v) | none |
| C18 | `C18_allow_override` (Prop_Effect.v); `C18_enforce` (Prop_Enforce.v) | none |
| C19 | `C19_deny_override` (Prop_Effect.v); `C19_enforce` (Prop_Enforce.v) | none |
| C20 | `C20_and_exact`, `C20_allow_and_no_deny_partial`, `C20_granted_sound`, `C20_allow_and_no_deny_refuted` (Prop_Effect.v); `C20_enforce_exact`, `C20_enforce_partial`, `C20_enforce_refuted` (Prop_Enforce.v) | none |
| C21 | `C21_unsupported_denies` (Prop_Effect.v); `C21_enforce` (Prop_Enforce.v) | none |
| C22 | `C22_unsupported_reported_refuted`, `C22_effector_reports_partial` (Prop_Effect.v); `C22_enforce_refuted` (Prop_Enforce.v) | none |
| C23 | `C23_no_effect_column`, `C23_effect_column_partial`, `C23_omitted_effect_refuted`, `C23_omitted_effect_exact` (Prop_Defs.v) | none |
| C24 | `C24_named_column_partial`, `C24_named_column_refuted`, `C24_unknown_parameter`, `C24_policy_arguments_found`, `C24_no_policy_arguments` (Prop_Defs.v) | none |
| C25 | `C25_literal_refuted`, `C25_only_dots_change`, `C25_no_dot_partial`, `C25_arguments_rewritten` (Prop_Defs.v) | none |
| C26 | `C26_bounded_reachability` (Prop_Rbac.v) | none |
| C27 | `C27_read_only`, `C27_read_only_refuted`, `C27_read_only_partial` (Prop_Rbac.v) | none |
| C28 | `C28_roles_users_exact`, `C28_inverse` (Prop_Rbac.v) | none |
| C29 | `C29_pattern_roles_refuted`, `C29_order_refuted`, `C29_pattern_roles_partial`, `C29_full_claim_partial`, `C29_order_independent_partial`, `C29_roles_users_partial` (Prop_Rbac.v) | none |
| C30 | `C30_cache_transparent_refuted`, `C30_cache_transparent_partial`, `C30_queries_partial` (Prop_Rbac.v) | none |
| C31 | `C31_bounded_and_consistent`, `C31_get_only_stored`, `C31_evicts_least_recently_used`, `C31_no_other_eviction`, `C31_capacity_zero_panics` (Prop_Cache.v) | none |
| C32 | `C32_last_put_refuted`, `C32_first_value_wins`, `C32_last_put_partial` (Prop_Cache.v) | none |
| C33 | `C33_isolated_partial`, `C33_isolated_refuted`, `C33_isolated_places`, `C33_bounded_reachability_partial`, `C33_roles_users_partial` (Prop_Domain.v) | none |
| C34 | `C34_renaming_refuted`, `C34_special_names_refuted`, `C34_renaming_partial` (Prop_Domain.v) | none |
| C35 | `C35_patterns_apply_refuted`, `C35_patterns_apply_partial`, `C35_roles_users_partial`, `C35_add_reports_partial` (Prop_Domain.v) | none |
| C36 | `C36_removed_refuted`, `C36_blocked_refuted`, `C36_hidden_refuted`, `C36_explicit_effective_partial` (Prop_Domain.v) | none |
| C37 | `C37_set_matcher_domains_refuted`, `C37_set_domain_matcher_refuted` (Prop_Domain.v); `C37_set_domain_matcher_partial`, `C37_set_matcher_domains_partial` (Prop_DomainSet.v); `C37_set_matcher_partial` (Prop_Rbac.v) | none |
| C38 | `C38_no_crash_refuted`, `C38_read_only_partial`, `C38_read_only_patterns_partial` (Prop_Domain.v) | none |
| C39 | `C39_flush`, `C39_no_error_means_delivered`, `C39_every_change_once` (Prop_Storage.v) | none |
| C40 | `C40_storage_follows_partial`, `C40_after_flush_partial`, `C40_autosave_partial`, `C40_clear_refuted`, `C40_extra_values_refuted` (Prop_Storage.v) | none |
| C41 | `C41_failed_flush_refuted`, `C41_failed_batch_refuted`, `C41_failed_flush_partial` (Prop_Storage.v) | none |
| C42 | `C42_add_wait` (Prop_Storage.v) | none |
| C43 | `C43_load`, `C43_delivery_after_load` (Prop_Storage.v) | none |
| C44 | `C44_set_adapter`, `C44_old_adapter_silent`, `C44_new_adapter` (Prop_Storage.v) | none |
| C45 | `C45_path_refuted`, `C45_path_loads_partial`, `C45_adapter_value` (Prop_Storage.v) | none |
| C46 | `C46_round_trip_refuted`, `C46_round_trip_partial` (Prop_File.v) | none |
| C47 | `C47_add_rules_partial`, `C47_remove_rules_partial`, `C47_one_rule_partial`, `C47_unreadable_file`, `C47_quoted_file_refuted` (Prop_File.v) | none |
| C48 | `C48_crash_atomic_refuted`, `C48_crash_states_partial`, `C48_loaded_after_crash_partial`, `C48_save_reports_errors` (Prop_File.v) | none |
| C49 | `C49_batch_calls` (Prop_Storage.v) | none |
| C50 | `C50_gets_answer`, `C50_answers_stored`, `C50_serial_partial`, `C50_consistent_refuted` (Prop_SyncCache.v) | none |
| C51 | `C51_independent_partial`, `C51_no_eval_partial`, `C51_ends`, `C51_independent_refuted` (Prop_SyncEnforce.v) | none |
| C52 | `C52_path_match_refuted`, `C52_path_match_exact`, `C52_path_match_sound`, `C52_path_match_partial` (Prop_Path.v) | none |
| C53 | `C53_non_pattern_matches_itself_only`, `C53_is_pattern_exact`, `C53_path_matchers`, `C53_prefix_matcher` (Prop_Path.v) | none |
| C54 | `C54_reload` (Prop_Load.v); `C54_definitions`, `C54_model_text` (Prop_ModelDefs.v) | none |
| C55 | `C55_get_distinct`, `C55_missing_column_panics` (Prop_Policy.v) | none |
| C56 | `C56_definitions`, `C56_bad_key`, `C56_empty_key_panics`, `C56_matchers_current_refuted`, `C56_matchers_current_partial` (Prop_ModelDefs.v) | none |
| C57 | `C57_unknown_refuted`, `C57_role_manager_refuted`, `C57_reported_partial` (Prop_ModelDefs.v) | none |
| C58 | `C58_left_alone_partial`, `C58_answers`, `C58_copied_refuted` (Prop_Alias.v) | none |
| C59 | `C59_rbac_partial`, `C59_blank_refuted`, `C59_comma_refuted` (Prop_E2E.v) | none |
| C60 | `C60_pending_changes_refuted`, `C60_flush_first_partial` (Prop_Storage.v) | none |
| C61 | `C61_set_model_refuted`, `C61_set_model_and_adapter_partial` (Prop_Storage.v) | none |
| C62 | `C62_failure_is_panic_refuted`, `C62_no_failure_no_panic` (Prop_Storage.v) | none |
| C63 | `C63_split_key` (Prop_Defs.v) | none |
| C64 | `C64_state_unchanged`, `C64_later_same`, `C64_no_side_effects_partial`, `C64_no_side_effects_refuted` (Prop_Pure.v) | none |
| C65 | `C65_filter_partial`, `C65_enforce_partial`, `C65_unknown_request`, `C65_defaults_missing`, `C65_errors_refuted` (Prop_QueryErr.v) | none |
| C66 | `C66_registered`, `C66_role_function`, `C66_domain_function`, `C66_other_arguments`, `C66_remove_answer` (Prop_Functions.v) | none |
| C67 | `C67_no_panic_partial`, `C67_panics_exactly`, `C67_no_panic_refuted` (Prop_Safe.v) | none |
| C68 | `C68_load_is_calls`, `C68_loaded_definitions`, `C68_bad_key` (Prop_Load.v) | none |
| C69 | `C69_all_domains`, `C69_domains_of_name_refuted`, `C69_domains_of_name_partial` (Prop_DomainList.v) | none |
| C70 | `C70_wrong_arguments`, `C70_answers`, `C70_no_panic_refuted`, `C70_panics_exactly` (Prop_Builtin.v) | none |
| C71 | `C71_ipv4_network`, `C71_ipv4_address`, `C71_ipv4_texts`, `C71_ipv6_network`, `C71_long_prefix` (Prop_Builtin.v) | none |
| C72 | `C72_functions`, `C72_builtin_names` (Prop_Builtin.v) | none |
| C73 | `C73_filter_text`, `C73_enforce_text` (Prop_Adhoc.v) | none |
| C74 | `C74_filter_partial`, `C74_clear_refuted` (Prop_Group.v) | none |
| C75 | `C75_decides_by_meaning` (Prop_App.v) | none |
| C76 | `C76_access_control_list` (Prop_Apps.v) | none |
| C77 | `C77_rbac_with_domains` (Prop_Apps.v) | none |
| C78 | `C78_rbac_with_denials` (Prop_Apps.v) | none |
| C79 | `C79_file_follows_partial`, `C79_autosave_partial`, `C79_no_file_refuted`, `C79_revoked_rule_refuted` (Prop_Persist.v) | none |
| C80 | `C80_load_partial`, `C80_restart_partial`, `C80_restart_refuted` (Prop_Persist.v) | none |
| C81 | `C81_access_control_list_partial`, `C81_rbac_with_domains_partial`, `C81_rbac_with_denials_partial`, `C81_other_rules_refuted` (Prop_Restart.v) | none |
| C82 | `C82_same_as_redefining`, `C82_listing_partial`, `C82_decisions_refuted`, `C82_grouping_refuted` (Prop_Setters.v) | none |
| C83 | `C83_rules_with_a_condition`, `C83_other_columns_refuted` (Prop_Abac.v) | none |
| C84 | `C84_super_user` (Prop_Abac.v) | none |
| C85 | `C85_concurrent_calls_partial`, `C85_someone_did_partial`, `C85_calls_return`, `C85_concurrent_calls_refuted`, `C85_two_adds_refuted`, `C85_add_delete_refuted` (Prop_SyncRole.v) | none |
| C86 | `C86_queries_at_once_partial`, `C86_queries_at_once_refuted` (Prop_SyncRole.v) | none |
| C87 | `C87_each_matcher_decides_partial` (Prop_Multi.v) | none |
| C88 | `C88_column_by_column` (Prop_Columns.v) | none |
| C89 | `C89_filter_by_constants_partial`, `C89_empty_refuted` (Prop_Filters.v) | none |
| C90 | `C90_more_rules_grant_more`, `C90_same_rules_same_decisions`, `C90_one_call` (Prop_Monotone.v) | none |
| C91 | `C91_load_panics_exactly`, `C91_load_result`, `C91_rules_loaded_partial`, `C91_new_enforcer`, `C91_load_refuted` (Prop_LoadAny.v) | none |
| C92 | `C92_logical_meaning_partial`, `C92_revoked_refuted`, `C92_no_rule_refuted` (Prop_Logic.v) | none |
| C93 | `C93_domain_calls_partial`, `C93_queries_at_once_partial`, `C93_one_at_a_time`, `C93_calls_return`, `C93_new_domain_refuted`, `C93_new_parent_refuted` (Prop_SyncDomain.v) | none |
| C94 | `C94_decides_on_the_request`, `C94_effect_needed_refuted` (Prop_Request.v) | none |
| C95 | `C95_asked_in_order`, `C95_error_denied`, `C95_whole_answer`, `C95_built_in_agrees`, `C95_error_denies_refuted` (Prop_UserEffector.v) | none |
| C96 | `C96_own_matcher_partial`, `C96_no_rule_refuted` (Prop_LogicText.v) | none |
| C97 | `C97_has_role`, `C97_roles_users`, `C97_history_irrelevant` (Prop_Patterns.v) | none |
| C98 | `C98_direct_access_partial`, `C98_untold_refuted` (Prop_RoleAccess.v) | none |
| C99 | `C99_with_leftovers`, `C99_nothing_left` (Prop_Leftover.v) | none |
