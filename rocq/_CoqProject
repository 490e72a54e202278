-Q theories Verif
theories/GoBase.v
theories/GoBaseP.v
theories/PolicyM.v
theories/PolicySpec.v
theories/PolicyP.v
theories/Prop_Policy.v
theories/DefsM.v
theories/DefsP.v
theories/Prop_Defs.v
theories/EffectorM.v
theories/EffectorP.v
theories/Prop_Effect.v
theories/CacheM.v
theories/CacheSpec.v
theories/CacheP.v
theories/Prop_Cache.v
theories/PathM.v
theories/PathSpec.v
theories/PathP.v
theories/Prop_Path.v
theories/MatcherDefM.v
theories/MatcherDefSpec.v
theories/MatcherDefP.v
theories/Prop_MatcherDef.v
theories/MatcherM.v
theories/MatcherSpec.v
theories/MatcherP.v
theories/MatcherP2.v
theories/EvalM.v
theories/Prop_Matcher.v
theories/RbacM.v
theories/RbacSpec.v
theories/RbacP.v
theories/RbacP2.v
theories/RbacP3.v
theories/RbacP4.v
theories/Prop_Rbac.v
theories/DomainM.v
theories/DomainSpec.v
theories/DomainP.v
theories/DomainP2.v
theories/DomainP3.v
theories/DomainP4.v
theories/Prop_Domain.v
theories/DomainP5.v
theories/Prop_DomainLinks.v
theories/DomainP6.v
theories/Prop_DomainSet.v
theories/Prop_DomainList.v
theories/ModelM.v
theories/ModelSpec.v
theories/ModelP.v
theories/ModelP2.v
theories/ModelP3.v
theories/ModelP4.v
theories/ModelP5.v
theories/ModelP6.v
theories/Prop_Model.v
theories/Prop_ModelDefs.v
theories/Prop_Load.v
theories/BuiltinM.v
theories/BuiltinSpec.v
theories/BuiltinP.v
theories/Prop_Builtin.v
theories/StorageM.v
theories/StorageSpec.v
theories/StorageP.v
theories/StorageP2.v
theories/StorageP3.v
theories/StorageP4.v
theories/Prop_Storage.v
theories/FileM.v
theories/FileSpec.v
theories/FileP.v
theories/Prop_File.v
theories/EnforcerM.v
theories/EnforcerSpec.v
theories/EnforcerP.v
theories/Prop_Enforce.v
theories/Prop_Query.v
theories/FunctionsSpec.v
theories/FunctionsP.v
theories/Prop_Functions.v
theories/SafeSpec.v
theories/SafeP.v
theories/Prop_Safe.v
theories/RbacE2ESpec.v
theories/Prop_E2E.v
theories/SimP.v
theories/Prop_Pure.v
theories/Prop_QueryErr.v
theories/SyncCacheM.v
theories/SyncCacheP.v
theories/Prop_SyncCache.v
theories/SyncEnforceM.v
theories/Prop_SyncEnforce.v
theories/AliasM.v
theories/AliasSpec.v
theories/Prop_Alias.v
theories/Prop_Adhoc.v
theories/Prop_Group.v
theories/AppSpec.v
theories/Prop_App.v
theories/AppsSpec.v
theories/Prop_Apps.v
theories/FileWorldM.v
theories/PersistSpec.v
theories/PersistP.v
theories/Prop_Persist.v
theories/RestartSpec.v
theories/Prop_Restart.v
theories/SettersM.v
theories/SettersSpec.v
theories/Prop_Setters.v
theories/AbacSpec.v
theories/Prop_Abac.v
theories/SyncRoleM.v
theories/SyncRoleSpec.v
theories/SyncRoleP.v
theories/Prop_SyncRole.v
theories/MultiSpec.v
theories/Prop_Multi.v
theories/Prop_Columns.v
theories/FiltersSpec.v
theories/Prop_Filters.v
theories/Prop_Monotone.v
theories/Prop_LoadAny.v
theories/LogicSpec.v
theories/Prop_Logic.v
theories/SyncDomainM.v
theories/SyncDomainSpec.v
theories/SyncDomainP.v
theories/Prop_SyncDomain.v
theories/RequestSpec.v
theories/Prop_Request.v
theories/UserEffectorM.v
theories/UserEffectorSpec.v
theories/Prop_UserEffector.v
theories/LogicTextSpec.v
theories/Prop_LogicText.v
theories/PatternsM.v
theories/PatternsSpec.v
theories/RbacP5.v
theories/Prop_Patterns.v
theories/RoleAccessM.v
theories/RoleAccessSpec.v
theories/LogicP.v
theories/RoleAccessP.v
theories/Prop_RoleAccess.v
theories/LeftoverSpec.v
theories/LeftoverP.v
theories/Prop_Leftover.v
theories/DomainPatternSpec.v
theories/DomainP7.v
theories/Prop_DomainPattern.v
theories/Prop_LogicMono.v
theories/RestartFileSpec.v
theories/Prop_RestartFile.v
theories/UserRoleM.v
theories/UserRoleSpec.v
theories/UserRoleP.v
theories/Prop_UserRole.v
theories/UserMatcherM.v
theories/UserMatcherSpec.v
theories/Prop_UserMatcher.v
theories/StoreSpec.v
theories/StoreP.v
theories/Prop_Store.v
theories/RestartFileP.v
theories/StoreRestartSpec.v
theories/Prop_StoreRestart.v
theories/ControllersM.v
theories/ControllersSpec.v
theories/ControllersP.v
theories/Prop_Controllers.v
theories/UserPolicyM.v
theories/UserPolicySpec.v
theories/UserPolicyP.v
theories/Prop_UserPolicy.v
theories/ArgsSpec.v
theories/ArgsP.v
theories/Prop_Args.v
theories/CrashSpec.v
theories/CrashP.v
theories/Prop_Crash.v
theories/RecoverM.v
theories/RecoverSpec.v
theories/RecoverP.v
theories/RecoverP2.v
theories/RecoverP3.v
theories/RecoverP4.v
theories/Prop_Recover.v
theories/DelayedSpec.v
theories/DelayedP.v
theories/Prop_Delayed.v
theories/FailM.v
theories/FailSpec.v
theories/FailP.v
theories/FailP2.v
theories/Prop_Fail.v
theories/WideM.v
theories/WideSpec.v
theories/WideP.v
theories/WideP2.v
theories/WideP3.v
theories/Prop_Wide.v
theories/OpenSpec.v
theories/Prop_Open.v
theories/SyncPatSpec.v
theories/SyncPatP.v
theories/Prop_SyncPat.v
theories/ReactM.v
theories/ReactSpec.v
theories/ReactP.v
theories/Prop_React.v
